(** ItemConv: [item(v)] and back ([sunwrap]), for nested Python values. *)
From Verif Require Import Base Source Utils Items Container Arrays Parser Api Lemmas Consist OMap ContOps Wf ListSpec ArrayLemmas ItemInd PyVal PyItem Strings StringRT StringApi.
From Coq Require Import Permutation.
Open Scope nat_scope.

(** * Sequences of optional or failing results *)
Fixpoint seqopt {A} (l : list (option A)) : option (list A) :=
  match l with
  | [] => Some []
  | x :: l' => match x, seqopt l' with Some a, Some r => Some (a :: r) | _, _ => None end
  end.
Fixpoint mapr {A B} (f : A -> res B) (l : list A) : res (list B) :=
  match l with
  | [] => Ok []
  | x :: l' => let* y := f x in let* r := mapr f l' in Ok (y :: r)
  end.
Lemma seqopt_forall2 {A B} (R : B -> A -> Prop) (f : B -> option A) l : Forall (fun x => exists a, f x = Some a /\ R x a) l ->
  exists r, seqopt (map f l) = Some r /\ Forall2 R l r.
Proof.
  induction 1 as [|x l (a & E & Ha) H (r & E' & Hr)]; [exists []; split; [reflexivity|constructor]|]. cbn [map seqopt]. rewrite E, E'. exists (a :: r). split; [reflexivity|constructor; assumption].
Qed.
Lemma mapr_forall2 {A B} (R : A -> B -> Prop) (f : A -> res B) l : Forall (fun x => exists a, f x = Ok a /\ R x a) l ->
  exists r, mapr f l = Ok r /\ Forall2 R l r.
Proof.
  induction 1 as [|x l (a & E & Ha) H (r & E' & Hr)]; [exists []; split; [reflexivity|constructor]|]. cbn [mapr]. rewrite E, E'. exists (a :: r). split; [reflexivity|constructor; assumption].
Qed.

(** [unwrap] when no table is out of order *)
Fixpoint sunwrap (i : item) : option pyv :=
  match i with
  | IVal (SStr _ v _) _ => Some (PStr v)
  | IVal (SInt z _) _ => Some (PInt z)
  | IVal (SFloat f _) _ => Some (PFloat f)
  | IVal (SBool b) _ => Some (PBool b)
  | IVal (SDate d _) _ => Some (PDate d)
  | IVal (STime t _) _ => Some (PTime t)
  | IVal (SDateTime d _) _ => Some (PDateTime d)
  | IArray gs _ _ =>
      option_map PList ((fix go (l : list (agroup item)) : option (list pyv) :=
        match l with
        | [] => Some []
        | mkGroup _ v _ _ :: l' =>
            match v with
            | None | Some (IWs _ _) | Some (IComment _) | Some INull => go l'
            | Some x => match sunwrap x, go l' with Some a, Some r => Some (a :: r) | _, _ => None end
            end
        end) gs)
  | IInline c _ _ | ITable c _ => option_map PDict (sunwrap_cont c)
  | IAoT l _ _ _ =>
      option_map PList ((fix go (l : list (container * tmeta)) : option (list pyv) :=
        match l with
        | [] => Some []
        | (c, _) :: l' => match sunwrap_cont c, go l' with Some a, Some r => Some (PDict a :: r) | _, _ => None end
        end) l)
  | _ => None
  end
with sunwrap_cont (c : container) : option (list (str * pyv)) :=
  match c with
  | Cont body m _ _ d =>
      let vals := (fix go (l : list (option skey * item)) : list (option pyv) :=
                     match l with [] => [] | (_, v) :: l' => sunwrap v :: go l' end) body in
      (fix pick (ks : list str) : option (list (str * pyv)) :=
         match ks with
         | [] => Some []
         | k :: ks' =>
             match map_get k m with
             | Some (One i) => match nth_error vals i with
                               | Some (Some v) => option_map (cons (k, v)) (pick ks')
                               | _ => None
                               end
             | _ => None
             end
         end) d
  end.

(** * The equations of [sunwrap] and [py_item] *)
Definition suval (c : container) (k : str) : option pyv := match get_item c k with Some i => sunwrap i | None => None end.
Definition real_b (i : item) : bool := match i with IWs _ _ | IComment _ | INull => false | _ => true end.
Definition shown_vals (gs : list (agroup item)) : list item := flat_map (fun g => match g_value g with Some v => if real_b v then [v] else [] | None => [] end) gs.
Lemma sunwrap_array gs t m : sunwrap (IArray gs t m) = option_map PList (seqopt (map sunwrap (shown_vals gs))).
Proof.
  cbn [sunwrap]. f_equal. induction gs as [|[a v b c] gs IH]; [reflexivity|]. cbn [shown_vals flat_map g_value] in IH |- *. fold (shown_vals gs).
  destruct v as [v|]; [|exact IH]. destruct v; cbn [real_b app map seqopt]; try exact IH; rewrite IH; reflexivity.
Qed.
Lemma sunwrap_aot l n p t : sunwrap (IAoT l n p t) = option_map PList (seqopt (map (fun x => option_map PDict (sunwrap_cont (fst x))) l)).
Proof.
  cbn [sunwrap]. f_equal. induction l as [|[c m] l IH]; [reflexivity|]. cbn [map seqopt fst]. rewrite IH. destruct (sunwrap_cont c); reflexivity.
Qed.
Lemma sunwrap_cont_eq c : sunwrap_cont c = seqopt (map (fun k => option_map (pair k) (suval c k)) (c_dict c)).
Proof.
  destruct c as [body m p tks d]. cbn [sunwrap_cont c_dict].
  set (vals := (fix go (l : list (option skey * item)) := _) body).
  assert (Hv : vals = map (fun kv => sunwrap (snd kv)) body).
  { subst vals. induction body as [|[k v] body IH]; [reflexivity|]. cbn [map snd]. rewrite IH. reflexivity. }
  rewrite Hv. clear vals Hv. induction d as [|k d IH]; [reflexivity|]. cbn [map seqopt]. rewrite IH. unfold suval at 2, get_item. cbn [c_map c_body].
  destruct (map_get k m) as [[i|l]|]; try reflexivity. rewrite nth_error_map. destruct (nth_error body i) as [[a v]|]; cbn [option_map snd]; [|reflexivity].
  destruct (sunwrap v); cbn [option_map]; [|reflexivity]. destruct (seqopt _); reflexivity.
Qed.
Lemma sunwrap_table c m : sunwrap (ITable c m) = option_map PDict (sunwrap_cont c).
Proof. reflexivity. Qed.
Lemma sunwrap_inline c t n : sunwrap (IInline c t n) = option_map PDict (sunwrap_cont c).
Proof. reflexivity. Qed.
Definition elem_item (inl : bool) (x : pyv) : res item :=
  match x with
  | PDict kvs =>
      let* its := mapr (fun kv : str * pyv => let* i := py_item (dict_parent inl) (snd kv) in Ok (is_dict (snd kv), (fst kv, bare_trail inl i))) kvs in
      let* c := build (empty_cont false) (dicts_last its) in
      Ok (new_dict inl true c)
  | _ => py_item PkArray x
  end.
Lemma py_item_dict pk kvs : py_item pk (PDict kvs) =
  (let inl := pk_inline pk in
   let* its := mapr (fun kv : str * pyv => let* i := py_item (dict_parent inl) (snd kv) in Ok (fst kv, i)) kvs in
   let* c := build (empty_cont false) its in Ok (new_dict inl false c)).
Proof.
  cbn [py_item]. cbv zeta. f_equal. induction kvs as [|[k x] l IH]; [reflexivity|]. cbn [mapr fst snd]. rewrite <- IH. destruct (py_item _ x); reflexivity.
Qed.
Lemma py_item_list pk l : py_item pk (PList l) =
  (let aot := wants_aot pk l in
   let* its := mapr (elem_item (negb aot)) l in
   if aot then Ok (aot_of (flat_map as_table its))
   else let* a := arr_extend arr_empty its in Ok (IArray (a_groups a) default_trivia false)).
Proof.
  cbn [py_item]. cbv zeta. f_equal. generalize (wants_aot pk l). intros aot. induction l as [|x l IH]; [reflexivity|]. cbn [mapr]. rewrite <- IH. f_equal.
  destruct x as [ | | | | | | | |kvs]; try reflexivity. cbn [elem_item]. f_equal. clear. induction kvs as [|[k y] l IH]; [reflexivity|]. cbn [mapr fst snd]. rewrite <- IH. destruct (py_item _ y); reflexivity.
Qed.

(** * Decoration does not matter *)
Lemma sunwrap_trivia t i : sunwrap (set_trivia t i) = sunwrap i.
Proof. destruct i; reflexivity. Qed.
Lemma sunwrap_strip i : sunwrap (strip i) = sunwrap i.
Proof. apply sunwrap_trivia. Qed.
Lemma sunwrap_name k i : sunwrap (set_name k i) = sunwrap i.
Proof. destruct i as [ | | | | | |c m|l n p t]; try reflexivity; cbn; [destruct (tm_name m); reflexivity|destruct n; reflexivity]. Qed.
Lemma sunwrap_inval i : sunwrap (inval_item i) = sunwrap i.
Proof.
  revert i. refine (item_ind2 (fun i => sunwrap (inval_item i) = sunwrap i) (fun c => sunwrap_cont (inval_cont c) = sunwrap_cont c) _ _ _ _ _ _ _ _ _); try reflexivity.
  - intros c m H. cbn [inval_item]. rewrite !sunwrap_table, H. reflexivity.
  - intros l n p t H. cbn [inval_item]. rewrite !sunwrap_aot. f_equal. f_equal. rewrite map_map. apply map_ext_in. intros [c m] Hin. rewrite Forall_forall in H. specialize (H _ Hin). cbn [fst] in H |- *. rewrite H. reflexivity.
  - intros body m p tks d H. rewrite !sunwrap_cont_eq. cbn [inval_cont c_dict]. f_equal. apply map_ext. intros k. f_equal. unfold suval, get_item. cbn [c_map c_body].
    destruct (map_get k m) as [[i|l]|]; try reflexivity. rewrite nth_error_map. destruct (nth_error body i) as [[a v]|] eqn:E; [|reflexivity]. cbn [option_map snd].
    rewrite Forall_forall in H. apply nth_error_In in E. specialize (H _ E). cbn [snd] in H. destruct a as [a|]; [|reflexivity]. destruct (map_get (k_key a) m) as [[j|]|]; [exact H|reflexivity|reflexivity].
Qed.
Lemma sunwrap_pre c k i : sunwrap (pre_append c k i) = sunwrap i.
Proof.
  destruct c as [body m p tks d], i as [ | | | | | |c0 m0|l n q t]; try reflexivity.
  - cbn [pre_append]. set (j := if p then _ else _). assert (H : sunwrap j = sunwrap (ITable c0 m0)) by (subst j; destruct p; [reflexivity|apply sunwrap_inval]).
    clearbody j. destruct (_ && _); [rewrite sunwrap_trivia|]; exact H.
  - cbn [pre_append]. destruct (_ && _); [|reflexivity]. pose proof (sunwrap_inval (IAoT l n q t)) as H. destruct (inval_item (IAoT l n q t)) as [ | | | | | | |[|[xc xm] l'] n' q' t']; try exact H.
    destruct (negb _); [|exact H]. rewrite <- H, !sunwrap_aot. reflexivity.
Qed.

(** * Building a container *)
Definition good (i : item) : Prop := real i.
Lemma good_pre c k i : good i -> is_table_or_aot i = true -> is_table_or_aot (pre_append c k i) = true.
Proof.
  destruct c as [body m p tks d], i as [ | | | | | |c0 m0|l n q t]; cbn [is_table_or_aot]; try discriminate; intros _ _; cbn [pre_append].
  - set (j := if p then _ else _). assert (H : is_table_or_aot j = true) by (subst j; destruct p; reflexivity). clearbody j. destruct (_ && _); [|exact H]. destruct j; try discriminate; reflexivity.
  - destruct (_ && _); [|reflexivity]. cbn [inval_item]. destruct l as [|[xc xm] l]; [reflexivity|]. cbn [map]. destruct (negb _); reflexivity.
Qed.
Lemma good_name k i : is_table_or_aot i = true -> is_table_or_aot (set_name k i) = true.
Proof. destruct i as [ | | | | | |c m|l n p t]; cbn; try discriminate; [destruct (tm_name m); reflexivity|destruct n; reflexivity]. Qed.
Lemma real_cases i : real i -> plain i \/ is_table_or_aot i = true.
Proof. destruct i; cbn; tauto. Qed.
Lemma append_new_any n prox strict c k v val : map_get (k_key k) (c_map c) = None ->
  append (S (S n)) prox strict c (Some (KSingle k)) v val = append_end c (Some k) (pre_append c (Some k) (set_name (k_key k) v)).
Proof. intros H. cbn [append kstr]. destruct n; cbn [contains]; rewrite H; reflexivity. Qed.
Lemma append_end_table c k it : is_table_or_aot it = true -> k_dotted k = false -> append_end c (Some k) it = raw_append c (Some k) it.
Proof. intros H H'. destruct c as [body m p tks d]. unfold append_end. rewrite H, H'. cbn [negb orb]. rewrite andb_false_r. reflexivity. Qed.
Lemma set_new c k i : consistent c -> real i -> map_get k (c_map c) = None ->
  exists c', set_item c k i = Ok c' /\ consistent c' /\ c_dict c' = c_dict c ++ [k] /\ suval c' k = sunwrap i /\ (forall x, x <> k -> suval c' x = suval c x).
Proof.
  intros Hc Hr N. unfold set_item. destruct (app_fuel_pos c (Some (KSingle (skey_of_str k))) i) as [n ->].
  change (contains (S (S (S n))) c k) with (match map_get k (c_map c) with
      | None => Ok false | Some (One _) => Ok true
      | Some (Many l) => match proxy (S (S n)) c l with Ok _ => Ok true | Err (NonExistentKeyE _) => Ok false | Err e => Err e end end).
  rewrite N. cbn [rbind]. rewrite append_new_any by exact N. rewrite skey_of_str_key.
  assert (X : exists c' b1 b1' b2 i', append_end c (Some (skey_of_str k)) (pre_append c (Some (skey_of_str k)) (set_name k i)) = Ok c' /\ add_shape c (skey_of_str k) i' c' b1 b1' b2 /\ sunwrap i' = sunwrap i).
  { destruct (real_cases i Hr) as [Hp|Ht].
    - rewrite plain_name, plain_pre by exact Hp. destruct (append_end_new c (skey_of_str k) i Hc Hp N) as (c' & b1' & E & A & _). exists c'; do 3 eexists; exists i; split; [exact E|]; split; [exact A|reflexivity].
    - assert (Ht' := good_pre c (Some (skey_of_str k)) (set_name k i)). rewrite append_end_table; [|apply Ht'; [|apply good_name; exact Ht]|reflexivity].
      + destruct c as [body m p tks d]. destruct (raw_append_new body body m p tks d (skey_of_str k) (pre_append (Cont body m p tks d) (Some (skey_of_str k)) (set_name k i)) Hc (sim_refl body) N) as (c' & E & A).
        exists c', body, body, [], (pre_append (Cont body m p tks d) (Some (skey_of_str k)) (set_name k i)). split; [exact E|]. split; [exact A|]. rewrite sunwrap_pre, sunwrap_name. reflexivity.
      + destruct i as [ | | | | | |c0 m0|l n0 q t]; try discriminate Ht; cbn; [destruct (tm_name m0); exact Logic.I|destruct n0; exact Logic.I]. }
  destruct X as (c' & b1 & b1' & b2 & i' & E & [_ _ _ Sd _ Sg So _ Sc] & U). rewrite skey_of_str_key in *. exists c'. split; [exact E|]. split; [exact Sc|]. split; [exact Sd|]. split.
  - unfold suval. rewrite Sg. exact U.
  - intros x Hx. specialize (So x Hx). unfold suval. destruct (get_item c' x) as [a|], (get_item c x) as [b|]; cbn [option_map] in So; try discriminate; [|reflexivity].
    inversion So as [S1]. rewrite <- (sunwrap_strip a), <- (sunwrap_strip b), S1. reflexivity.
Qed.
Lemma dict_get_none c k : consistent c -> ~ In k (c_dict c) -> map_get k (c_map c) = None.
Proof. intros Hc H. rewrite (consistent_dict c k Hc) in H. destruct (map_get k (c_map c)); [exfalso; apply H; discriminate|reflexivity]. Qed.
Lemma build_ok its : forall c, consistent c -> NoDup (c_dict c ++ map fst its) -> Forall (fun ki => real (snd ki)) its ->
  exists c', build c its = Ok c' /\ consistent c' /\ c_dict c' = c_dict c ++ map fst its
    /\ (forall k, In k (c_dict c) -> suval c' k = suval c k) /\ Forall (fun ki => suval c' (fst ki) = sunwrap (snd ki)) its.
Proof.
  induction its as [|[k i] its IH]; intros c Hc Nd Hr; cbn [build map fst].
  - exists c. rewrite app_nil_r. split; [reflexivity|]. split; [exact Hc|]. split; [reflexivity|]. split; [auto|constructor].
  - inversion Hr as [|? ? Hi Hr']; subst. cbn [snd map fst] in *.
    assert (Nk : ~ In k (c_dict c)) by (apply NoDup_remove_2 in Nd; intros X; apply Nd, in_or_app; auto).
    destruct (set_new c k i Hc Hi (dict_get_none _ _ Hc Nk)) as (c1 & -> & Hc1 & Hd1 & Hu1 & Hold). cbn [rbind].
    destruct (IH c1 Hc1) as (c' & E & Hc' & Hd' & Hu' & Hf).
    { rewrite Hd1, <- app_assoc. exact Nd. } { exact Hr'. }
    exists c'. split; [exact E|]. split; [exact Hc'|]. split; [rewrite Hd', Hd1, <- app_assoc; reflexivity|]. split.
    + intros x Hx. rewrite Hu' by (rewrite Hd1; apply in_or_app; auto). apply Hold. intros ->. contradiction.
    + constructor; [|exact Hf]. cbn [fst snd]. rewrite Hu' by (rewrite Hd1; apply in_or_app; right; left; reflexivity). exact Hu1.
Qed.
Lemma empty_consistent p : consistent (empty_cont p).
Proof.
  split; [intros k ci H; discriminate|]. split; [intros i sk v H; destruct i; discriminate|]. repeat split; cbn; try constructor; try tauto; congruence.
Qed.
(** What is built shows the values of the items, key by key. *)
Lemma build_unwrap (its : list (str * item)) (kvs : list (str * pyv)) :
  NoDup (map fst kvs) -> Forall2 (fun kv ki => fst ki = fst kv /\ real (snd ki) /\ exists v', sunwrap (snd ki) = Some v' /\ pyeq (snd kv) v') kvs its ->
  exists c r, build (empty_cont false) its = Ok c /\ consistent c /\ sunwrap_cont c = Some r /\ Forall2 (fun a b => fst a = fst b /\ pyeq (snd a) (snd b)) kvs r.
Proof.
  intros Nd H. assert (Hk : map fst its = map fst kvs) by (clear Nd; induction H as [|a b l l' (Hk & _) H IH]; cbn [map]; [reflexivity|congruence]).
  destruct (build_ok its (empty_cont false)) as (c & E & Hc & Hd & _ & Hf).
  { apply empty_consistent. } { cbn [empty_cont c_dict app]. rewrite Hk. exact Nd. } { clear -H. induction H as [|a b l l' (_ & Hr & _) H IH]; constructor; auto. }
  exists c. cbn [empty_cont c_dict app] in Hd. rewrite sunwrap_cont_eq, Hd.
  assert (X : exists r, seqopt (map (fun k => option_map (pair k) (suval c k)) (map fst its)) = Some r /\ Forall2 (fun a b => fst a = fst b /\ pyeq (snd a) (snd b)) kvs r).
  { clear E Hd Hk Nd. induction H as [|kv ki l l' (Hk & _ & v' & Hu & Hp) H IH]; [exists []; split; [reflexivity|constructor]|]. inversion Hf as [|? ? Hx Hf']; subst.
    destruct (IH Hf') as (r & Er & Hr). exists ((fst ki, v') :: r). cbn [map seqopt]. rewrite Hx, Hu, Er. cbn [option_map]. split; [reflexivity|]. constructor; [|exact Hr]. cbn [fst snd]. auto. }
  destruct X as (r & Er & Hr). exists r. auto.
Qed.

(** * Arrays of tables made from a list *)
Lemma aot_insert_map l p t i x : map (fun x => sunwrap_cont (fst x)) (aot_insert l p t i x) = list_insert (aot_index (List.length l) i) (sunwrap_cont (fst x)) (map (fun x => sunwrap_cont (fst x)) l).
Proof.
  unfold aot_insert. set (x1 := match first_spaces _ with Some _ => _ | None => _ end).
  assert (H1 : fst x1 = fst x) by (subst x1; destruct (first_spaces _); [destruct x|]; reflexivity). clearbody x1.
  assert (G : forall (y : container * tmeta) (l' : list (container * tmeta)), fst y = fst x -> map (fun x => sunwrap_cont (fst x)) l' = map (fun x => sunwrap_cont (fst x)) l ->
    map (fun x => sunwrap_cont (fst x)) (list_insert (aot_index (List.length l) i) y l') = list_insert (aot_index (List.length l) i) (sunwrap_cont (fst x)) (map (fun x => sunwrap_cont (fst x)) l)).
  { intros y l' Hy Hl. unfold list_insert. rewrite map_app. cbn [map]. rewrite Hy, <- firstn_map, <- skipn_map, Hl. reflexivity. }
  destruct p; [apply G; auto|]. apply G.
  - destruct (_ && _); [|exact H1]. rewrite <- H1. destruct x1; reflexivity.
  - destruct (Nat.ltb _ _); [|reflexivity]. destruct (nth_error l (S _)) as [y|] eqn:E; [|reflexivity]. destruct (_ && _); [|reflexivity].
    clear -E. revert E. generalize (S (aot_index (List.length l) i)). intros n. revert n. induction l as [|z l IH]; intros [|n] E; cbn in E |- *; try discriminate.
    + inversion E; subst. destruct y; reflexivity.
    + rewrite (IH _ E). reflexivity.
Qed.
Lemma aot_append_map l p t x : map (fun x => sunwrap_cont (fst x)) (aot_append l p t x) = map (fun x => sunwrap_cont (fst x)) l ++ [sunwrap_cont (fst x)].
Proof.
  unfold aot_append. rewrite aot_insert_map. assert (H : aot_index (List.length l) (Z.of_nat (List.length l)) = List.length (map (fun x => sunwrap_cont (fst x)) l)).
  { rewrite map_length. unfold aot_index. destruct (Z.ltb_spec (Z.of_nat (List.length l)) 0) as [C|C]; [clear -C; lia|]. destruct (Z.ltb_spec (Z.of_nat (List.length l)) 0) as [D|D]; [clear -D; lia|].
    destruct (Z.leb_spec (Z.of_nat (List.length l)) (Z.of_nat (List.length l))) as [D'|D']; [reflexivity|clear -D'; lia]. }
  rewrite H. unfold list_insert. rewrite firstn_all, skipn_all. reflexivity.
Qed.
Lemma aot_make_map ts n p : exists l, aot_make ts n p = IAoT l n p aot_trivia /\ map (fun x => sunwrap_cont (fst x)) l = map (fun x => sunwrap_cont (fst x)) ts.
Proof.
  unfold aot_make. eexists. split; [reflexivity|]. assert (G : forall ts l0, map (fun x => sunwrap_cont (fst x)) (fold_left (fun l x => aot_append l p aot_trivia x) ts l0) = map (fun x => sunwrap_cont (fst x)) l0 ++ map (fun x => sunwrap_cont (fst x)) ts).
  { clear. induction ts as [|x ts IH]; intros l0; cbn [fold_left map]; [rewrite app_nil_r; reflexivity|]. rewrite IH, aot_append_map, <- app_assoc. reflexivity. }
  rewrite G. reflexivity.
Qed.

(** * [item(v).sunwrap() == v] *)
Definition conv_ok (v : pyv) : Prop := forall pk, exists i v', py_item pk v = Ok i /\ sunwrap i = Some v' /\ pyeq v v' /\ real i.
Definition parts_ok (v : pyv) : Prop := match v with PDict kvs => NoDup (map fst kvs) /\ Forall (fun kv => conv_ok (snd kv)) kvs | _ => True end.
Lemma shown_reals gs : Forall real (reals gs) -> shown_vals gs = reals gs.
Proof.
  induction gs as [|[a v b c] gs IH]; intros H; [reflexivity|]. rewrite reals_cons in *. apply Forall_app in H as [H1 H2]. cbn [shown_vals flat_map g_value]. fold (shown_vals gs). rewrite (IH H2). f_equal.
  unfold greal, g_real in *. cbn [g_value] in *. destruct v as [v|]; [|reflexivity]. destruct v; cbn [is_null real_b] in *; try reflexivity; inversion H1; destruct H3.
Qed.
Lemma filter_split {A} (f : A -> bool) (l : list A) : Permutation l (filter (fun x => negb (f x)) l ++ filter f l).
Proof.
  induction l as [|x l IH]; [constructor|]. cbn [filter]. destruct (f x); cbn [negb app]; [|constructor; exact IH]. apply Permutation_cons_app. exact IH.
Qed.
Lemma filter_forall2 {A B} (R : A -> B -> Prop) (f : A -> bool) (g : B -> bool) l r : (forall a b, R a b -> f a = g b) -> Forall2 R l r -> Forall2 R (filter f l) (filter g r).
Proof.
  intros H. induction 1 as [|a b l r Hab Hl IH]; cbn [filter]; [constructor|]. rewrite (H _ _ Hab). destruct (g b); [constructor; assumption|exact IH].
Qed.
Lemma perm_nodup {A B} (f : A -> B) l l' : Permutation l l' -> NoDup (map f l) -> NoDup (map f l').
Proof. intros H. apply Permutation_NoDup, Permutation_map, H. Qed.
Lemma real_bare inl i : real i -> real (bare_trail inl i).
Proof. unfold bare_trail. destruct inl; [|auto]. destruct i; cbn; auto. Qed.
Lemma sunwrap_bare inl i : sunwrap (bare_trail inl i) = sunwrap i.
Proof. unfold bare_trail. destruct inl; [apply sunwrap_trivia|reflexivity]. Qed.
Lemma new_dict_unwrap inl f c r : sunwrap_cont c = Some r -> sunwrap (new_dict inl f c) = Some (PDict r).
Proof. intros H. unfold new_dict. destruct inl; cbn; rewrite H; reflexivity. Qed.
Lemma elem_ok inl x : conv_ok x -> parts_ok x -> exists i v', elem_item inl x = Ok i /\ sunwrap i = Some v' /\ pyeq x v' /\ real i
  /\ (is_dict x = true -> inl = false -> exists c m, i = ITable c m).
Proof.
  intros Hc Hp. destruct x as [ | | | | | | | |kvs]; try (destruct (Hc PkArray) as (i & v' & E & U & P & R); exists i, v'; cbn [elem_item is_dict]; repeat split; auto; discriminate).
  destruct Hp as [Nd Hf]. cbn [elem_item].
  destruct (mapr_forall2 (fun (kv : str * pyv) (y : bool * (str * item)) => fst y = is_dict (snd kv) /\ fst (snd y) = fst kv /\ real (snd (snd y)) /\ exists v', sunwrap (snd (snd y)) = Some v' /\ pyeq (snd kv) v')
    (fun kv : str * pyv => let* i := py_item (dict_parent inl) (snd kv) in Ok (is_dict (snd kv), (fst kv, bare_trail inl i))) kvs) as (its & -> & Hits).
  { eapply Forall_impl; [|exact Hf]. intros kv Hkv. destruct (Hkv (dict_parent inl)) as (i & v' & -> & U & P & R). cbn [rbind]. eexists. split; [reflexivity|]. cbn [fst snd].
    split; [reflexivity|]. split; [reflexivity|]. split; [apply real_bare, R|]. exists v'. rewrite sunwrap_bare. auto. }
  cbn [rbind].
  destruct (build_unwrap (dicts_last its) (filter (fun kv => negb (is_dict (snd kv))) kvs ++ filter (fun kv => is_dict (snd kv)) kvs)) as (c & r & -> & _ & U & F).
  { eapply perm_nodup; [apply (filter_split (fun kv => is_dict (snd kv)))|exact Nd]. }
  { unfold dicts_last. apply Forall2_app.
    - assert (G := filter_forall2 _ (fun kv : str * pyv => negb (is_dict (snd kv))) (fun y : bool * (str * item) => negb (fst y)) _ _ (fun a b H => f_equal negb (eq_sym (proj1 H))) Hits).
      clear -G. induction G as [|a b l l' (A & B) G IH]; cbn [map]; constructor; auto.
    - assert (G := filter_forall2 _ (fun kv : str * pyv => is_dict (snd kv)) (@fst bool (str * item)) _ _ (fun a b H => eq_sym (proj1 H)) Hits).
      clear -G. induction G as [|a b l l' (A & B) G IH]; cbn [map]; constructor; auto. }
  cbn [rbind]. exists (new_dict inl true c), (PDict r). split; [reflexivity|]. split; [apply new_dict_unwrap, U|]. split.
  - eapply pe_dict; [apply (filter_split (fun kv => is_dict (snd kv)))|exact F].
  - split; [destruct inl; exact Logic.I|]. intros _ ->. unfold new_dict. eauto.
Qed.
Lemma conv_parts v : py_ok v -> conv_ok v /\ parts_ok v.
Proof.
  revert v. refine (pyv_rect2 (fun v => py_ok v -> conv_ok v /\ parts_ok v) _ _ _ _ _ _ _ _ _).
  - intros s _. split; [|exact Logic.I]. intros pk. cbn [py_item]. destruct (api_slb s) as (i & E & V & _). exists i, (PStr s). split; [exact E|]. destruct i as [ | | |v t| | | | ]; try discriminate V. destruct v; try discriminate V.
    cbn in V. inversion V; subst. split; [reflexivity|]. split; [constructor|exact Logic.I].
  - intros z _. split; [|exact Logic.I]. intros pk. exists (api_int z), (PInt z). repeat split; constructor.
  - intros b _. split; [|exact Logic.I]. intros pk. exists (api_bool b), (PBool b). repeat split; constructor.
  - intros f _. split; [|exact Logic.I]. intros pk. exists (api_float f), (PFloat f). repeat split; constructor.
  - intros d _. split; [|exact Logic.I]. intros pk. exists (api_date d), (PDate d). repeat split; constructor.
  - intros d _. split; [|exact Logic.I]. intros pk. exists (api_time d), (PTime d). repeat split; constructor.
  - intros d _. split; [|exact Logic.I]. intros pk. exists (api_datetime d), (PDateTime d). repeat split; constructor.
  - intros l IH Hok. split; [|exact Logic.I]. inversion Hok as [l0 Hl| | | | | | | | ]; subst. intros pk. rewrite py_item_list. cbv zeta. set (aot := wants_aot pk l).
    destruct (mapr_forall2 (fun x i => real i /\ (exists v', sunwrap i = Some v' /\ pyeq x v') /\ (aot = true -> exists c m, i = ITable c m)) (elem_item (negb aot)) l) as (its & -> & Hits).
    { rewrite Forall_forall in IH, Hl |- *. intros x Hx. destruct (IH x Hx (Hl x Hx)) as [H1 H2]. destruct (elem_ok (negb aot) x H1 H2) as (i & v' & E & U & P & R & T). exists i. split; [exact E|].
      split; [exact R|]. split; [eauto|]. intros Ha. apply T; [|rewrite Ha; reflexivity]. subst aot. unfold wants_aot in Ha. apply andb_true_iff in Ha as [Ha _]. destruct l as [|y l']; [discriminate|].
      rewrite forallb_forall in Ha. apply Ha, Hx. }
    cbn [rbind]. destruct aot.
    + assert (X : exists r, seqopt (map (fun x => option_map PDict (sunwrap_cont (fst x))) (flat_map as_table its)) = Some r /\ Forall2 pyeq l r).
      { clear -Hits. induction Hits as [|x i l its (_ & (v' & U & P) & T) H IH]; [exists []; split; [reflexivity|constructor]|]. destruct (T eq_refl) as (c & m & ->). destruct IH as (r & E & F).
        cbn [flat_map as_table app map seqopt fst]. rewrite E. cbn [sunwrap] in U. rewrite U. exists (v' :: r). split; [reflexivity|constructor; assumption]. }
      destruct X as (r & E & F). unfold aot_of. destruct (aot_make_map (flat_map as_table its) None false) as (l' & -> & M). exists (IAoT l' None false aot_trivia), (PList r). split; [reflexivity|].
      rewrite sunwrap_aot. rewrite <- (map_map (fun x => sunwrap_cont (fst x)) (option_map PDict)), M, map_map, E. split; [reflexivity|]. split; [constructor; exact F|exact Logic.I].
    + destruct (extend_sync its arr_empty [] sync_empty) as (a & -> & Sy). { clear -Hits. induction Hits as [|x i l its (R & _) H IH]; constructor; auto. }
      cbn [rbind app] in *. assert (X : exists r, seqopt (map sunwrap its) = Some r /\ Forall2 pyeq l r).
      { clear -Hits. induction Hits as [|x i l its (_ & (v' & U & P) & _) H IH]; [exists []; split; [reflexivity|constructor]|]. destruct IH as (r & E & F). cbn [map seqopt]. rewrite U, E. exists (v' :: r). split; [reflexivity|constructor; assumption]. }
      destruct X as (r & E & F). exists (IArray (a_groups a) default_trivia false), (PList r). split; [reflexivity|]. rewrite sunwrap_array.
      assert (Hr : reals (a_groups a) = its) by apply Sy. rewrite shown_reals by (rewrite Hr; clear -Hits; induction Hits as [|x i l its (R & _) H IH]; constructor; auto). rewrite Hr, E.
      split; [reflexivity|]. split; [constructor; exact F|exact Logic.I].
  - intros kvs IH Hok. inversion Hok as [|l0 Nd Hl| | | | | | | ]; subst.
    assert (Hf : Forall (fun kv => conv_ok (snd kv)) kvs) by (rewrite Forall_forall in *; intros kv Hin; apply (IH kv Hin), Hl, Hin).
    split; [|split; assumption]. intros pk. rewrite py_item_dict. cbv zeta. set (inl := pk_inline pk).
    destruct (mapr_forall2 (fun (kv : str * pyv) (ki : str * item) => fst ki = fst kv /\ real (snd ki) /\ exists v', sunwrap (snd ki) = Some v' /\ pyeq (snd kv) v')
      (fun kv : str * pyv => let* i := py_item (dict_parent inl) (snd kv) in Ok (fst kv, i)) kvs) as (its & -> & Hits).
    { eapply Forall_impl; [|exact Hf]. intros kv Hkv. destruct (Hkv (dict_parent inl)) as (i & v' & -> & U & P & R). cbn [rbind]. eexists. split; [reflexivity|]. cbn [fst snd]. eauto. }
    cbn [rbind]. destruct (build_unwrap its kvs Nd Hits) as (c & r & -> & _ & U & F). cbn [rbind]. exists (new_dict inl false c), (PDict r). split; [reflexivity|]. split; [apply new_dict_unwrap, U|].
    split; [eapply pe_dict; [apply Permutation_refl|exact F]|destruct inl; exact Logic.I].
Qed.
Theorem item_unwrap v : py_ok v -> exists i v', py_item PkNone v = Ok i /\ sunwrap i = Some v' /\ pyeq v v'.
Proof. intros H. destruct (conv_parts v H) as [C _]. destruct (C PkNone) as (i & v' & E & U & P & _). eauto. Qed.
