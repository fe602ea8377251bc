(** DumpRender: the text of [dumps] is the function of DumpText. *)
From Verif Require Import Base Source Utils Items Container Arrays Parser Api Lemmas Escape Strings StringRT StringApi Keys Consist OMap ContOps Wf Render TextValue ListSpec ArrayLemmas ItemInd PyVal PyItem ItemConv DumpText DumpCont DumpValue DumpHead DumpDoc.
From Coq Require Import ZifyBool ZifyNat ZifyN Permutation.
Open Scope nat_scope.

(** * Arrays *)
Definition grp (fst0 lst : bool) (v : item) : agroup item := mkGroup (if fst0 then None else Some [chSP]) (Some v) (if lst then None else Some [chCOMMA]) None.
Fixpoint gsf (fst0 : bool) (xs : list item) : list (agroup item) :=
  match xs with [] => [] | x :: r => grp fst0 (match r with [] => true | _ => false end) x :: gsf false r end.
Lemma gsf_length f xs : List.length (gsf f xs) = List.length xs.
Proof. revert f. induction xs as [|x r IH]; intros f; [reflexivity|]. cbn [gsf List.length]. rewrite IH. reflexivity. Qed.
Lemma gsf_last f y xs : nth_error (gsf f (xs ++ [y])) (List.length xs) = Some (grp (match xs with [] => f | _ => false end) true y).
Proof.
  revert f. induction xs as [|x r IH]; intros f; [reflexivity|]. cbn [app gsf List.length nth_error]. rewrite IH. destruct r; reflexivity.
Qed.
Lemma gsf_snoc f y x xs : list_set (List.length xs) (set_comma (Some [chCOMMA]) (grp (match xs with [] => f | _ => false end) true y)) (gsf f (xs ++ [y])) ++ [grp false true x] = gsf f ((xs ++ [y]) ++ [x]).
Proof.
  revert f. induction xs as [|z r IH]; intros f; [reflexivity|]. specialize (IH false). cbn [app gsf List.length list_set]. rewrite <- IH. replace (match r with [] => false | _ => false end) with false by (destruct r; reflexivity).
  destruct r; reflexivity.
Qed.
Lemma append_groups l xs m x : Forall real xs -> real x -> List.length l = List.length xs -> exists a', arr_append (mkArr l (gsf true xs) m) x = Ok a' /\ a_groups a' = gsf true (xs ++ [x]) /\ List.length (a_list a') = List.length (xs ++ [x]).
Proof.
  intros Rx R Hl. unfold arr_append. cbn [a_list]. unfold arr_insert. assert (H0 : (Z.of_nat (List.length l) <? 0)%Z = false) by (apply Z.ltb_ge; clear; lia). rewrite H0. rewrite Z.ltb_irrefl. rewrite (real_deco x R).
  assert (Hp : py_pos (List.length l) (Z.of_nat (List.length l)) = List.length l). { unfold py_pos. rewrite H0, H0, Z.leb_refl. reflexivity. }
  rewrite Hp. assert (Hins : List.length (list_insert (List.length l) (LItem x) l) = S (List.length xs)) by (unfold list_insert; rewrite app_length, firstn_all, skipn_all; cbn [List.length]; clear -Hl; lia).
  destruct xs as [|y0 ys0]; [|destruct (exists_last (l := y0 :: ys0) ltac:(discriminate)) as (xs & y & E); rewrite E in *; clear y0 ys0 E].
  - cbn [gsf List.length nth_error rbind app]. eexists. split; [reflexivity|]. split; [reflexivity|]. cbn [a_list]. exact Hins.
  - apply Forall_app in Rx as [_ Ry]. apply Forall_inv in Ry.
    rewrite gsf_length, app_length. cbn [List.length]. replace (List.length xs + 1) with (S (List.length xs)) by (clear; lia). rewrite gsf_last. unfold g_is_ws at 1. cbn [g_value grp].
    rewrite app_length in Hins. cbn [List.length] in Hins.
    cbn [rbind]. replace (nth_error (gsf true (xs ++ [y])) (S (List.length xs))) with (@None (agroup item)).
    2: { symmetry. apply nth_error_None. rewrite gsf_length, app_length. cbn [List.length]. clear; lia. }
    rewrite gsf_last. unfold g_null. cbn [g_value grp g_comma g_indent]. rewrite (real_null y Ry). cbn [negb andb Nat.ltb Nat.leb orb].
    eexists. split; [reflexivity|]. cbn [a_groups a_list]. split; [|rewrite Hins, !app_length; cbn [List.length]; clear; lia].
    rewrite <- gsf_snoc. unfold list_insert. set (g := list_set _ _ _). assert (Lg : List.length g = S (List.length xs)). { subst g. rewrite length_list_set, gsf_length, app_length. cbn [List.length]. clear; lia. }
    rewrite <- Lg, firstn_all, skipn_all. f_equal. destruct xs; reflexivity.
Qed.
Lemma extend_groups ys : Forall real ys -> forall l xs m, Forall real xs -> List.length l = List.length xs -> exists a', arr_extend (mkArr l (gsf true xs) m) ys = Ok a' /\ a_groups a' = gsf true (xs ++ ys).
Proof.
  induction 1 as [|y ys Ry F IH]; intros l xs m Rx Hl; cbn [arr_extend].
  - eexists. split; [reflexivity|]. rewrite app_nil_r. reflexivity.
  - destruct (append_groups l xs m y Rx Ry Hl) as ([l1 g1 m1] & -> & E & Hl1). cbn [rbind a_groups a_list] in *. subst g1.
    destruct (IH l1 (xs ++ [y]) m1) as (a' & E' & G). { apply Forall_app. auto. } { exact Hl1. } exists a'. split; [exact E'|]. rewrite G, <- app_assoc. reflexivity.
Qed.
Lemma groups_text xs : forall f, flat_map gtext (gsf f xs) = (if f then [] else match xs with [] => [] | _ => [chSP] end) ++ join (L ", ") (map item_string xs).
Proof.
  induction xs as [|x r IH]; intros f; [destruct f; reflexivity|]. cbn [gsf flat_map map]. rewrite IH. unfold gtext. cbn [g_indent g_value g_comma g_comment grp].
  destruct r as [|y r]; [destruct f; cbn [opt_str app join map]; rewrite ?app_nil_r; reflexivity|]. cbn [map].
  change (join (L ", ") (item_string x :: item_string y :: map item_string r)) with (item_string x ++ [chCOMMA; chSP] ++ join (L ", ") (item_string y :: map item_string r)).
  destruct f; cbn [opt_str app]; rewrite <- !app_assoc; reflexivity.
Qed.
Lemma array_made its : Forall real its -> exists a, arr_extend arr_empty its = Ok a /\ item_string (IArray (a_groups a) default_trivia false) = [chLBR] ++ join (L ", ") (map item_string its) ++ [chRBR].
Proof.
  intros R. destruct (extend_groups its R [] [] [] (Forall_nil _) eq_refl) as (a & E & G). exists a. split; [exact E|]. rewrite array_string, G, groups_text. reflexivity.
Qed.

(** * Setting a new key *)
Definition ent (ki : str * item) : option skey * item := (Some (skey_of_str (fst ki)), snd ki).
Lemma set_item_new c k i : map_get k (c_map c) = None -> set_item c k i = append_end c (Some (skey_of_str k)) (pre_append c (Some (skey_of_str k)) (set_name k i)).
Proof.
  intros N. unfold set_item. destruct (app_fuel_pos c (Some (KSingle (skey_of_str k))) i) as [n ->].
  change (contains (S (S (S n))) c k) with (match map_get k (c_map c) with
      | None => Ok false | Some (One _) => Ok true
      | Some (Many l) => match proxy (S (S n)) c l with Ok _ => Ok true | Err (NonExistentKeyE _) => Ok false | Err e => Err e end end).
  rewrite N. cbn [rbind]. rewrite append_new_any by exact N. rewrite skey_of_str_key. reflexivity.
Qed.
Record set_to (c : container) (k : str) (it : item) (c' : container) (body : list (option skey * item)) : Prop := {
  st_ok : consistent c'; st_parsed : c_parsed c' = false; st_dict : c_dict c' = c_dict c ++ [k]; st_body : c_body c' = body; st_get : get_item c' k = Some it }.
Lemma set_plain c k i : consistent c -> c_parsed c = false -> plain i -> map_get k (c_map c) = None ->
  exists c', set_item c k i = Ok c' /\ set_to c k i c' (close_line i (firstn (plain_place c) (c_body c)) ++ [ent (k, i)] ++ skipn (plain_place c) (c_body c)).
Proof.
  intros Hc Hp Pi N. rewrite set_item_new by exact N. rewrite plain_name, plain_pre by exact Pi.
  destruct (append_end_new c (skey_of_str k) i Hc Pi N) as (c' & b1' & E & [_ Sb _ Sd Sp Sg _ _ Sc] & B). exists c'. split; [exact E|]. rewrite skey_of_str_key in *. rewrite (B Hp) in Sb. split; [exact Sc|congruence|exact Sd|exact Sb|exact Sg].
Qed.
Lemma set_table c k i : consistent c -> c_parsed c = false -> is_table_or_aot i = true -> map_get k (c_map c) = None ->
  exists c', set_item c k i = Ok c' /\ set_to c k (pre_append c (Some (skey_of_str k)) (set_name k i)) c' (c_body c ++ [ent (k, pre_append c (Some (skey_of_str k)) (set_name k i))]).
Proof.
  intros Hc Hp Ti N. rewrite set_item_new by exact N. set (i' := pre_append _ _ _).
  assert (Ti' : is_table_or_aot i' = true). { subst i'. apply good_pre; [|apply good_name, Ti]. destruct i as [ | | | | | |c0 m0|l n0 q t]; try discriminate Ti; cbn; [destruct (tm_name m0); exact Logic.I|destruct n0; exact Logic.I]. }
  rewrite append_end_table by (exact Ti' || reflexivity). destruct c as [body m p tks d]. cbn [c_parsed c_map c_body] in *.
  destruct (raw_append_new body body m p tks d (skey_of_str k) i' Hc (sim_refl body) N) as (c' & E & [_ Sb _ Sd Sp Sg _ _ Sc]). rewrite skey_of_str_key in *. exists c'. split; [exact E|]. cbn [c_parsed c_dict] in *. rewrite app_nil_r in Sb.
  split; [exact Sc|congruence|exact Sd|exact Sb|exact Sg].
Qed.

(** * Inline tables *)
Definition inlv (i : item) : Prop := plain i /\ tr_indent (item_trivia i) = [] /\ tr_comment (item_trivia i) = [] /\ (tr_trail (item_trivia i) = [] \/ tr_trail (item_trivia i) = [chLF]).
Definition inl_entry (kt : str * str) (kv : option skey * item) : Prop := exists v, kv = ent (fst kt, v) /\ inlv v /\ item_string v = snd kt.
Lemma place_plain body : Forall (fun kv => plain (snd kv)) body -> forall i, last_index_loop body i i = i + List.length body.
Proof.
  induction 1 as [|[k v] body P F IH]; intros i; cbn [last_index_loop List.length]; [lia|]. cbn [snd] in P. rewrite (plain_not_null v P), (plain_not_table v P). cbn [andb].
  replace (match v with IWs _ f => negb f | _ => false end) with false by (destruct v; try reflexivity; destruct P). rewrite IH. lia.
Qed.
Lemma inl_close ss body it : Forall2 inl_entry ss body -> Forall2 inl_entry ss (close_line it body).
Proof.
  intros F. unfold close_line. destruct (List.length body) as [|n] eqn:El; [exact F|]. destruct (nth_error body n) as [[pk prev]|] eqn:En; [|exact F]. destruct (ends_line it prev) eqn:Ee; [exact F|].
  clear El. revert n En. induction F as [|kt kv ss body (v & -> & (P & A & B & C) & D) F IH]; intros n En; [destruct n; discriminate|]. destruct n as [|n]; cbn [list_set nth_error] in *.
  - unfold ent in En. injection En as <- <-. constructor; [|exact F]. exists (add_nl_trail v). split; [reflexivity|]. unfold ends_line in Ee. apply orb_false_iff in Ee as [_ Ee]. destruct C as [C|C]; [|rewrite C in Ee; discriminate].
    unfold add_nl_trail. rewrite C. destruct v; try destruct P; cbn [set_trivia item_trivia with_trail tr_indent tr_comment tr_trail] in *; (split; [repeat split; auto|exact D]).
  - constructor; [exists v; repeat split; auto|]. apply IH, En.
Qed.
Lemma inl_plain ss body : Forall2 inl_entry ss body -> Forall (fun kv => plain (snd kv)) body.
Proof. induction 1 as [|kt kv ss body (v & -> & (P & _) & _) F IH]; constructor; [exact P|exact IH]. Qed.
Lemma build_inline its ss' : Forall2 (fun (kt : str * str) ki => fst ki = fst kt /\ inlv (snd ki) /\ item_string (snd ki) = snd kt) ss' its -> forall c ss,
  consistent c -> c_parsed c = false -> Forall2 inl_entry ss (c_body c) -> NoDup (c_dict c ++ map fst its) -> exists c', build c its = Ok c' /\ Forall2 inl_entry (ss ++ ss') (c_body c').
Proof.
  induction 1 as [|kt [k i] ss' its (Ek & Hi & Ei) F IH]; intros c ss Hc Hp Hb Nd; cbn [build].
  - exists c. rewrite app_nil_r. auto.
  - cbn [fst snd map] in *. assert (Nk : ~ In k (c_dict c)) by (apply NoDup_remove_2 in Nd; intros X; apply Nd, in_or_app; auto).
    destruct (set_plain c k i Hc Hp (proj1 Hi) (dict_get_none _ _ Hc Nk)) as (c1 & -> & [A B C D _]). cbn [rbind].
    assert (Pl : plain_place c = List.length (c_body c)). { unfold plain_place. rewrite Hp. unfold last_index_before_table. rewrite place_plain by (eapply inl_plain, Hb). reflexivity. }
    rewrite Pl, firstn_all, skipn_all, app_nil_r in D.
    destruct (IH c1 (ss ++ [kt]) A B) as (c' & E & Hb').
    { rewrite D. apply Forall2_app; [apply inl_close, Hb|]. constructor; [|constructor]. exists i. subst k. auto. } { rewrite C, <- app_assoc. exact Nd. }
    exists c'. split; [exact E|]. rewrite <- app_assoc in Hb'. exact Hb'.
Qed.
Lemma ient_text kt kv : inl_entry kt kv -> exists k v, kv = (Some k, v) /\ ient k v = key1 (fst kt) ++ L " = " ++ snd kt.
Proof.
  intros (v & -> & (P & A & B & C) & D). exists (skey_of_str (fst kt)), v. split; [reflexivity|]. unfold ient. rewrite A, B, D. unfold key1. cbn [k_dotted skey_of_str k_sep app].
  destruct C as [-> | ->]; [change (replace [chLF] [] []) with (@nil char)|change (replace [chLF] [] [chLF]) with (@nil char)]; rewrite !app_nil_r; reflexivity.
Qed.
Lemma keyed_last ss body : Forall2 inl_entry ss body -> forall i acc, last_keyed body i acc = match body with [] => acc | _ => Some (i + List.length body - 1) end.
Proof.
  induction 1 as [|kt kv ss body (v & -> & _) F IH]; intros i acc; [reflexivity|]. cbn [ent last_keyed List.length]. rewrite IH. destruct body; f_equal; cbn [List.length]; lia.
Qed.
Lemma inline_fold n li new ss body : Forall2 inl_entry ss body -> forall i buf, body <> [] -> li = i + List.length body - 1 ->
  snd (fold_left (istep n (Some li) new) body (i, buf)) = buf ++ join (if (new : bool) then L ", " else L ",") (map (fun kt : str * str => key1 (fst kt) ++ L " = " ++ snd kt) ss).
Proof.
  induction 1 as [|kt kv ss body H F IH]; intros i buf Ne El; [congruence|]. destruct (ient_text kt kv H) as (k & v & -> & Ei). cbn [fold_left istep]. rewrite Ei. destruct F as [|kt2 kv2 ss body H2 F].
  - cbn [fold_left map join snd List.length] in *. replace (Nat.ltb i li) with false by (symmetry; apply Nat.ltb_ge; lia). reflexivity.
  - replace (Nat.ltb i li) with true by (symmetry; apply Nat.ltb_lt; cbn [List.length] in *; lia). rewrite IH; [|discriminate|cbn [List.length] in *; lia].
    cbn [map]. set (x := key1 (fst kt) ++ _ ++ snd kt). set (r := _ :: map _ ss). assert (Er : r <> []) by discriminate. destruct r as [|y r]; [congruence|]. cbn [join]. destruct new; rewrite <- !app_assoc; reflexivity.
Qed.
Lemma inline_made c ss new : Forall2 inl_entry ss (c_body c) -> item_string (IInline c default_trivia new) = [chLCB] ++ join (if new then L ", " else L ",") (map (fun kt : str * str => key1 (fst kt) ++ L " = " ++ snd kt) ss) ++ [chRCB].
Proof.
  destruct c as [body m p tks d]. cbn [c_body]. intros F. rewrite inline_string, (keyed_last ss body F). destruct F as [|kt kv ss body H F]; [destruct new; reflexivity|].
  rewrite (inline_fold _ _ new (kt :: ss) (kv :: body)); [rewrite <- app_assoc; reflexivity|constructor; assumption|discriminate|reflexivity].
Qed.

(** * Tables *)
Definition plainv (i : item) : Prop := plain i /\ item_trivia i = default_trivia.
Definition quiet (i : item) : Prop := is_wsitem i = false /\ ends_with_whitespace i = false /\ inval_item i = i.
(** A table or an array of tables just made by [item]. *)
Definition tabv (i : item) : Prop :=
  quiet i /\ match i with ITable c m => m = mkTM default_trivia false None None None | IAoT (x :: l) n p t => n = None /\ has_nl_indent x = false | _ => False end.
Definition dress (b : bool) (k : str) (i : item) : item :=
  match i with
  | ITable c m => ITable c (mkTM (mkTrivia (blank b) [] [] [chLF]) false None (Some k) None)
  | IAoT (x :: l) n p t => IAoT ((if b then nl_indent x else x) :: l) (Some k) p t
  | _ => i
  end.
Lemma last_nonnull_in body : forall i acc j v, last_nonnull body i acc = Some (j, v) -> acc = Some (j, v) \/ exists k, In (k, v) body.
Proof.
  induction body as [|[k w] body IH]; intros i acc j v H; cbn [last_nonnull] in H; [auto|]. apply IH in H as [H|[k' H]]; [|right; exists k'; right; exact H].
  destruct (is_null w); [auto|]. injection H as -> ->. right. exists k. left. reflexivity.
Qed.
Lemma prev_quiet body : Forall (fun kv => quiet (snd kv)) body -> match previous_item body with Some i => is_wsitem i || ends_with_whitespace i | None => false end = false.
Proof.
  intros F. unfold previous_item. destruct (last_nonnull body 0 None) as [[j v]|] eqn:E; [|reflexivity]. cbn [option_map snd]. apply last_nonnull_in in E as [E|[k E]]; [discriminate|].
  rewrite Forall_forall in F. destruct (F _ E) as (A & B & _). cbn [snd] in *. rewrite A, B. reflexivity.
Qed.
Lemma tabv_table i : tabv i -> is_table_or_aot i = true.
Proof. intros [_ H]. destruct i; try destruct H; reflexivity. Qed.
Lemma dress_pre c k i : c_parsed c = false -> Forall (fun kv => quiet (snd kv)) (c_body c) -> tabv i -> pre_append c (Some (skey_of_str k)) (set_name k i) = dress (nonemptyb (c_body c)) k i.
Proof.
  destruct c as [body m p tks d]. cbn [c_parsed c_body]. intros -> F [(_ & _ & Iv) H]. pose proof (prev_quiet body F) as Pw. destruct i as [ | | | | | |tc tm|l n q t]; try (exfalso; exact H).
  - subst tm. cbn [set_name pre_append tm_name]. match goal with |- context [inval_item ?X] => assert (Iv' : inval_item X = X) end. { cbn [inval_item tm_trivia tm_aot tm_super tm_name tm_disp] in Iv |- *. injection Iv as Iv. rewrite Iv. reflexivity. }
    rewrite Iv'. cbn [item_trivia tm_trivia tm_aot tm_super tm_name tm_disp default_trivia tr_indent]. rewrite Pw. destruct body as [|x body]; cbn [List.length Nat.ltb Nat.leb andb nonemptyb]; reflexivity.
  - destruct l as [|x l]; [destruct H|]. destruct H as [-> Hx]. cbn [set_name pre_append]. assert (Iv' : inval_item (IAoT (x :: l) (Some k) q t) = IAoT (x :: l) (Some k) q t). { cbn [inval_item] in Iv |- *. apply (f_equal (fun i => match i with IAoT l _ _ _ => l | _ => [] end)) in Iv. cbv beta iota in Iv. rewrite Iv. reflexivity. }
    rewrite Iv', Hx, Pw. destruct body as [|y body]; reflexivity.
Qed.
Lemma dress_quiet b k i : tabv i -> quiet (dress b k i) /\ is_table_or_aot (dress b k i) = true.
Proof.
  intros [(A & B & C) H]. destruct i as [ | | | | | |tc tm|l n q t]; try (exfalso; exact H).
  - subst tm. cbn [dress]. repeat split; [exact B|]. cbn [inval_item tm_trivia tm_aot tm_super tm_name tm_disp] in *. injection C as C. rewrite C. reflexivity.
  - destruct l as [|x l]; [destruct H|]. cbn [dress]. repeat split. cbn [inval_item map] in *. injection C as C1 C2. rewrite C2. destruct x as [xc xm]. injection C1 as C1 C3. destruct b; [|rewrite C1, C3; reflexivity].
    unfold nl_indent. rewrite C1. rewrite <- C3. reflexivity.
Qed.
Lemma plainv_quiet i : plainv i -> quiet i.
Proof. intros [P _]. destruct i; try destruct P; repeat split. Qed.
Fixpoint plains (its : list (str * item)) : list (str * item) := match its with [] => [] | ki :: r => (if is_table_or_aot (snd ki) then [] else [ki]) ++ plains r end.
Fixpoint dressed (b : bool) (its : list (str * item)) : list (str * item) := match its with [] => [] | (k, i) :: r => (if is_table_or_aot i then [(k, dress b k i)] else []) ++ dressed true r end.
Definition madev (i : item) : Prop := plainv i \/ tabv i.
Lemma place_tables ps ts : Forall (fun ki => plainv (snd ki)) ps -> Forall (fun ki => is_table_or_aot (snd ki) = true) ts -> last_index_before_table (map ent (ps ++ ts)) = List.length ps.
Proof.
  intros P T. unfold last_index_before_table. assert (G : forall i, last_index_loop (map ent (ps ++ ts)) i i = i + List.length ps); [|apply G].
  induction P as [|[k v] ps [H _] P IH]; intros i.
  - cbn [app List.length]. destruct T as [|[k v] ts H T]; [cbn; lia|]. cbn [map ent fst snd last_index_loop] in *. destruct v; try discriminate H; cbn; lia.
  - cbn [app map ent fst snd last_index_loop List.length] in *. rewrite (plain_not_null v H), (plain_not_table v H). cbn [andb]. replace (match v with IWs _ f => negb f | _ => false end) with false by (destruct v; try reflexivity; destruct H). rewrite IH. lia.
Qed.
Lemma close_plain ps it : Forall (fun ki => plainv (snd ki)) ps -> close_line it (map ent ps) = map ent ps.
Proof.
  intros P. unfold close_line. destruct (List.length (map ent ps)) as [|n]; [reflexivity|]. destruct (nth_error (map ent ps) n) as [[pk prev]|] eqn:E; [|reflexivity].
  apply nth_error_In in E. apply in_map_iff in E as ([k v] & E & Hin). unfold ent in E. injection E as _ <-. rewrite Forall_forall in P. destruct (P _ Hin) as [_ T]. cbn [snd] in *. unfold ends_line. rewrite T. cbn [default_trivia tr_trail]. change (inb chLF [chLF]) with true. rewrite !orb_true_r. reflexivity.
Qed.
Lemma nonempty_map {A B} (f : A -> B) l : nonemptyb (map f l) = nonemptyb l. Proof. destruct l; reflexivity. Qed.
Lemma build_tables its : Forall (fun ki => madev (snd ki)) its -> forall c ps ts, consistent c -> c_parsed c = false ->
  c_body c = map ent (ps ++ ts) -> Forall (fun ki => plainv (snd ki)) ps -> Forall (fun ki => quiet (snd ki) /\ is_table_or_aot (snd ki) = true) ts -> NoDup (c_dict c ++ map fst its) ->
  exists c', build c its = Ok c' /\ c_body c' = map ent (ps ++ plains its) ++ map ent (ts ++ dressed (nonemptyb (ps ++ ts)) its) /\ c_dict c' = c_dict c ++ map fst its /\ consistent c' /\ c_parsed c' = false.
Proof.
  induction 1 as [|[k i] its H F IH]; intros c ps ts Hc Hp Hb P T Nd; cbn [build].
  - exists c. cbn [plains dressed map]. rewrite !app_nil_r, <- map_app. auto.
  - cbn [fst snd map] in *. assert (Nk : ~ In k (c_dict c)) by (apply NoDup_remove_2 in Nd; intros X; apply Nd, in_or_app; auto). pose proof (dict_get_none _ _ Hc Nk) as Ng. destruct H as [H|H].
    + destruct (set_plain c k i Hc Hp (proj1 H) Ng) as (c1 & -> & [A B C D _]). cbn [rbind].
      assert (Pl : plain_place c = List.length ps). { unfold plain_place. rewrite Hp, Hb. apply place_tables; [exact P|]. eapply Forall_impl; [|exact T]. intros ? [_ ?]; assumption. }
      rewrite Pl, Hb, map_app in D. rewrite firstn_app, skipn_app in D. rewrite map_length, Nat.sub_diag in D. rewrite (firstn_all2 (map ent ps)), (skipn_all2 (map ent ps)) in D by (rewrite map_length; lia). cbn [firstn skipn] in D. rewrite app_nil_r in D. cbn [app] in D. rewrite close_plain in D by exact P.
      destruct (IH c1 (ps ++ [(k, i)]) ts A B) as (c' & E & Hb' & Hd' & Cp). { rewrite D, !map_app. cbn [map]. rewrite <- app_assoc. reflexivity. } { apply Forall_app. split; [exact P|constructor; [exact H|constructor]]. } { exact T. } { rewrite C, <- app_assoc. exact Nd. }
      exists c'. split; [exact E|]. cbn [plains dressed fst snd]. rewrite (plain_not_table i (proj1 H)). cbn [app]. split.
      * rewrite Hb', <- app_assoc. replace (nonemptyb ((ps ++ [(k, i)]) ++ ts)) with true by (destruct ps; reflexivity). reflexivity.
      * rewrite Hd', C, <- app_assoc. split; [reflexivity|exact Cp].
    + assert (Q : Forall (fun kv => quiet (snd kv)) (c_body c)). { rewrite Hb. apply Forall_map, Forall_app. split; [eapply Forall_impl; [|exact P]; intros x Hx; apply plainv_quiet, Hx|eapply Forall_impl; [|exact T]; intros x [Hx _]; exact Hx]. }
      destruct (set_table c k i Hc Hp (tabv_table i H) Ng) as (c1 & -> & [A B C D _]). cbn [rbind]. rewrite dress_pre in D by assumption. rewrite Hb, nonempty_map in D.
      destruct (IH c1 ps (ts ++ [(k, dress (nonemptyb (ps ++ ts)) k i)]) A B) as (c' & E & Hb' & Hd' & Cp). { rewrite D, !map_app. cbn [map]. rewrite <- app_assoc. reflexivity. } { exact P. }
      { apply Forall_app. split; [exact T|constructor; [|constructor]]. cbn [snd]. apply dress_quiet, H. } { rewrite C, <- app_assoc. exact Nd. }
      exists c'. split; [exact E|]. cbn [plains dressed fst snd]. rewrite (tabv_table i H). cbn [app]. split.
      * rewrite Hb', <- app_assoc. replace (nonemptyb (ps ++ ts ++ [(k, dress (nonemptyb (ps ++ ts)) k i)])) with true by (destruct ps, ts; reflexivity). reflexivity.
      * rewrite Hd', C, <- app_assoc. split; [reflexivity|exact Cp].
Qed.

(** ** The text *)
Definition pfx_of (F : list str) : option str := match F with [] => None | _ => Some (path_text F) end.
Lemma path_snoc F k : path_text (F ++ [k]) = prefixed (pfx_of F) (key1 k).
Proof.
  unfold path_text, prefixed, pfx_of. destruct F as [|f F]; [reflexivity|]. revert f. induction F as [|g F IH]; intros f; [reflexivity|].
  cbn [app map join] in *. rewrite IH. unfold path_text. cbn [map join]. rewrite <- !app_assoc. reflexivity.
Qed.
Lemma pfx_snoc F k : pfx_of (F ++ [k]) = Some (prefixed (pfx_of F) (key1 k)).
Proof. rewrite <- path_snoc. destruct F; reflexivity. Qed.
Definition RT (x : pyv) (i : item) : Prop := forall F k (b : bool), Render.etext (pfx_of F) false (ent (k, dress b k i)) = blank b ++ ttext (F ++ [k]) x.
Definition rel (kv : str * pyv) (ki : str * item) : Prop :=
  fst ki = fst kv /\ (tablish (snd kv) = false -> plainv (snd ki) /\ item_string (snd ki) = vtext false (snd kv)) /\ (tablish (snd kv) = true -> tabv (snd ki) /\ RT (snd kv) (snd ki)).
Lemma rel_made kvs its : Forall2 rel kvs its -> Forall (fun ki => madev (snd ki)) its /\ map fst its = map fst kvs.
Proof.
  induction 1 as [|[k x] [k' i] kvs its (E & A & B) F [IH1 IH2]]; [split; constructor|]. cbn [fst snd map] in *. split; [|congruence]. constructor; [|exact IH1]. cbn [snd]. destruct (tablish x); [right; apply B|left; apply A]; reflexivity.
Qed.
Lemma plains_text F kvs its : Forall2 rel kvs its -> btext (pfx_of F) false (map ent (plains its)) = flat_map line (filter (fun kv => negb (tabl kv)) kvs).
Proof.
  induction 1 as [|[k x] [k' i] kvs its (E & A & B) H IH]; [reflexivity|]. cbn [fst snd plains filter] in *. subst k'. unfold tabl at 1. cbn [snd]. destruct (tablish x).
  - destruct (B eq_refl) as [T _]. rewrite (tabv_table i T). exact IH.
  - destruct (A eq_refl) as [[P T] S0]. rewrite (plain_not_table i P). cbn [negb app map flat_map]. cbn [btext flat_map] in *. unfold btext in IH |- *. cbn [flat_map]. rewrite IH. f_equal. unfold line. cbn [fst snd]. rewrite <- S0.
    unfold ent. cbn [fst snd]. destruct i; try destruct P; cbn [Render.etext item_trivia] in *; subst; cbn [simple_text prefixed default_trivia tr_indent tr_cws tr_comment tr_trail skey_of_str k_orig k_sep app]; unfold key1; cbn [skey_of_str k_orig app]; rewrite <- ?app_assoc; reflexivity.
Qed.
Lemma dressed_text F kvs its : Forall2 rel kvs its -> forall n, btext (pfx_of F) false (map ent (dressed (negb (Nat.eqb n 0)) its)) = tabs F (tagged n kvs).
Proof.
  induction 1 as [|[k x] [k' i] kvs its (E & A & B) H IH]; intros n; [reflexivity|]. cbn [fst snd dressed tagged] in *. subst k'. unfold tabl at 1. cbn [snd]. specialize (IH (S n)). cbn [Nat.eqb negb] in IH. destruct (tablish x).
  - destruct (B eq_refl) as [T R]. rewrite (tabv_table i T). cbn [app map]. unfold btext in IH |- *. cbn [flat_map tabs fst snd]. rewrite R, IH. reflexivity.
  - destruct (A eq_refl) as [[P _] _]. rewrite (plain_not_table i P). exact IH.
Qed.
Lemma assemble_eq F kvs : assemble (map (entry F) kvs) = flat_map line (filter (fun kv => negb (tabl kv)) kvs) ++ tabs F (tagged 0 kvs).
Proof. unfold assemble, dicts_last. rewrite concat_app, blanks_plain. f_equal. apply blanks_tabs. Qed.
Lemma made_body its : Forall (fun ki => madev (snd ki)) its -> NoDup (map fst its) -> exists c, build (empty_cont false) its = Ok c /\ c_body c = map ent (plains its) ++ map ent (dressed false its) /\ c_dict c = map fst its /\ consistent c /\ c_parsed c = false.
Proof.
  intros M Nd. destruct (build_tables its M (empty_cont false) [] []) as (c & E & Hb & Hd & Cp); auto; [apply empty_consistent|]. exists c. split; [exact E|]. split; [exact Hb|]. split; [exact Hd|exact Cp].
Qed.
Record madec (kvs : list (str * pyv)) (c : container) : Prop := {
  mc_text : forall F, btext (pfx_of F) false (c_body c) = assemble (map (entry F) kvs);
  mc_dict : c_dict c = map fst kvs;
  mc_quiet : Forall (fun kv => quiet (snd kv)) (c_body c);
  mc_super : forall m, tm_super m = None -> table_is_super c m = superb (PDict kvs);
  mc_plain : superb (PDict kvs) = true -> has_plain (c_body c) = false }.
Lemma made_container kvs its : Forall2 rel kvs its -> NoDup (map fst kvs) -> exists c, build (empty_cont false) its = Ok c /\ madec kvs c.
Proof.
  intros R Nd. destruct (rel_made kvs its R) as [M Ek]. rewrite <- Ek in Nd. destruct (made_body its M Nd) as (c & E & Hb & Hd & _). exists c. split; [exact E|].
  assert (One1 : forall k x, kvs = [(k, x)] -> exists i', c_body c = [ent (k, i')] /\ get_item c k = Some i' /\ is_table_or_aot i' = tablish x).
  { intros k x ->. inversion R as [|? [k0 i] ? ? (E1 & A & B) R1]; subst. inversion R1; subst. cbn [fst snd] in *. subst k0. cbn [build] in E. destruct (tablish x) eqn:Tx.
    - destruct (B eq_refl) as [T _]. destruct (set_table (empty_cont false) k i (empty_consistent false) eq_refl (tabv_table i T) eq_refl) as (c1 & E1 & S1). rewrite E1 in E. cbn [rbind] in E. injection E as <-.
      rewrite dress_pre in S1 by (auto; constructor). destruct S1 as [_ _ _ Sb Sg]. exists (dress false k i). split; [exact Sb|]. split; [exact Sg|]. apply dress_quiet, T.
    - destruct (A eq_refl) as [P _]. destruct (set_plain (empty_cont false) k i (empty_consistent false) eq_refl (proj1 P) eq_refl) as (c1 & E1 & S1). rewrite E1 in E. cbn [rbind] in E. injection E as <-.
      destruct S1 as [_ _ _ Sb Sg]. exists i. split; [exact Sb|]. split; [exact Sg|]. apply plain_not_table, P. }
  split.
  - intros F. rewrite Hb, btext_app, (plains_text F kvs its R), assemble_eq. f_equal. exact (dressed_text F kvs its R 0).
  - congruence.
  - rewrite Hb. apply Forall_app. split; apply Forall_map.
    + clear -M. induction M as [|[k i] its H F IH]; [constructor|]. cbn [plains snd] in *. destruct H as [H|H]; [rewrite (plain_not_table i (proj1 H))|rewrite (tabv_table i H)]; cbn [app]; [constructor; [apply plainv_quiet, H|exact IH]|exact IH].
    + clear -M. generalize false. induction M as [|[k i] its H F IH]; intros b; [constructor|]. cbn [dressed snd] in *. destruct H as [H|H]; [rewrite (plain_not_table i (proj1 H))|rewrite (tabv_table i H)]; cbn [app]; [apply IH|constructor; [apply dress_quiet, H|apply IH]].
  - intros m Hm. unfold table_is_super. rewrite Hm, Hd, Ek. destruct kvs as [|[k x] [|kv2 r]]; try reflexivity. cbn [map fst superb]. destruct (One1 k x eq_refl) as (i' & _ & G & T). unfold get_item in G.
    destruct (map_get k (c_map c)) as [[j|]|]; try discriminate. destruct (nth_error (c_body c) j) as [[a v]|]; [|discriminate]. cbn [option_map snd] in G. injection G as ->. exact T.
  - intros S0. destruct (superb_inv kvs S0) as (k & x & -> & Tx). destruct (One1 k x eq_refl) as (i' & -> & _ & T). unfold has_plain. cbn [existsb ent snd]. rewrite T, Tx. reflexivity.
Qed.
Lemma quiet_inval c : Forall (fun kv => quiet (snd kv)) (c_body c) -> inval_cont c = c.
Proof.
  destruct c as [body m p tks d]. cbn [c_body inval_cont]. intros F. f_equal. induction F as [|[[k|] v] body (_ & _ & H) F IH]; [reflexivity| |]; cbn [map snd] in *; rewrite IH; [|reflexivity]. destruct (map_get (k_key k) m) as [[]|]; rewrite ?H; reflexivity.
Qed.
Lemma dict_made kvs c : madec kvs c -> tabv (ITable c (mkTM default_trivia false None None None)) /\ RT (PDict kvs) (ITable c (mkTM default_trivia false None None None)).
Proof.
  intros [A B C D E]. split.
  - split; [|reflexivity]. split; [reflexivity|]. split; [|cbn [inval_item tm_trivia tm_aot tm_super tm_name]; rewrite quiet_inval by exact C; reflexivity].
    cbn [ends_with_whitespace]. pose proof (prev_quiet _ C) as P. destruct (previous_item (c_body c)); [|reflexivity]. apply orb_false_iff in P. apply P.
  - intros F k b. cbn [dress]. set (m := mkTM (mkTrivia (blank b) [] [] [chLF]) false None (Some k) None). unfold ent. cbn [fst snd Render.etext]. cbn [skey_of_str k_dotted]. rewrite andb_false_r. cbn [andb].
    rewrite render_table_eq. unfold Render.table_key. cbn [tm_disp m]. change (k_orig (mkSKey k _ _ _ _)) with (key1 k).
    replace (Some (prefixed (pfx_of F) _)) with (pfx_of (F ++ [k])) by (rewrite pfx_snoc; reflexivity). cbn [k_dotted]. rewrite A, ttext_dict. unfold table_head. rewrite (D m eq_refl). cbn [k_dotted negb]. rewrite andb_true_r.
    destruct (superb (PDict kvs)) eqn:S0; cbn [negb orb].
    + rewrite (E eq_refl). cbn [app tm_trivia m tr_indent]. destruct b; reflexivity.
    + unfold header, Render.table_key, hdr. cbn [tm_trivia m tr_indent tr_cws tr_comment tr_trail tm_aot tm_disp]. change (inb chLF [chLF]) with true. cbn [negb andb]. rewrite path_snoc. unfold key1. cbn [skey_of_str k_orig app]. rewrite app_nil_r, <- !app_assoc. cbn [app]. rewrite <- ?app_assoc. reflexivity.
Qed.

(** * Arrays of tables *)
Notation tab := (container * tmeta)%type.
Fixpoint aotl (b : bool) (l : list tab) : list tab :=
  match l with [] => [] | x :: r => (if b then nl_indent x else x) :: aotl (cont_nonempty (fst x)) r end.
Lemma aot_append_eq l x : has_nl_indent x = false ->
  aot_append l false aot_trivia x = l ++ [if match rev l with [] => false | y :: _ => cont_nonempty (fst y) end then nl_indent x else x].
Proof.
  intros Hx. unfold aot_append, aot_insert. change (first_spaces (tr_indent aot_trivia)) with (@None str).
  replace (aot_index (List.length l) (Z.of_nat (List.length l))) with (List.length l) by (unfold aot_index; replace (Z.of_nat (List.length l) <? 0)%Z with false by (symmetry; apply Z.ltb_ge; lia); rewrite Z.leb_refl; replace (Z.of_nat (List.length l) <? 0)%Z with false by (symmetry; apply Z.ltb_ge; lia); reflexivity).
  replace (Nat.ltb (S (List.length l)) (List.length l)) with false by (symmetry; apply Nat.ltb_ge; lia). rewrite Hx. cbn [negb]. rewrite andb_true_r.
  unfold list_insert. rewrite firstn_all, skipn_all. f_equal. f_equal.
  destruct l as [|y0 l0]; [reflexivity|]. destruct (exists_last (l := y0 :: l0) ltac:(discriminate)) as (l' & y & E). rewrite E, rev_app_distr, app_length. cbn [rev app List.length].
  replace (List.length l' + 1 - 1) with (List.length l') by lia. rewrite nth_error_app2, Nat.sub_diag by lia. cbn [nth_error]. destruct y as [yc ym]. cbn [fst].
  replace (Nat.ltb 0 (List.length l' + 1)) with true by (symmetry; apply Nat.ltb_lt; lia). reflexivity.
Qed.
Lemma aot_fold l : Forall (fun x => has_nl_indent x = false) l -> forall acc,
  fold_left (fun l x => aot_append l false aot_trivia x) l acc = acc ++ aotl (match rev acc with [] => false | y :: _ => cont_nonempty (fst y) end) l.
Proof.
  induction 1 as [|x l Hx F IH]; intros acc; [symmetry; apply app_nil_r|]. cbn [fold_left]. rewrite IH, aot_append_eq by exact Hx. rewrite rev_app_distr. cbn [rev app aotl]. rewrite <- app_assoc. cbn [app]. f_equal. f_equal.
  f_equal. destruct (match rev acc with [] => false | _ => _ end); [destruct x|]; reflexivity.
Qed.
Definition split_dicts (kvs : list (str * pyv)) : list (str * pyv) := filter (fun kv => negb (is_dict (snd kv))) kvs ++ filter (fun kv => is_dict (snd kv)) kvs.
Lemma el_split F kvs : el F (PDict kvs) = (nonemptyb kvs, hdr true F ++ assemble (map (entry F) (split_dicts kvs))).
Proof. cbn [el]. f_equal. f_equal. f_equal. unfold split_dicts. rewrite <- dicts_last_map. f_equal. apply map_ext. intros [k x]. reflexivity. Qed.
Definition elm (b : bool) : tmeta := mkTM (mkTrivia (blank b) [] [] [chLF]) true None None None.
Definition elem (d : pyv) (x : tab) : Prop := exists kvs c, d = PDict kvs /\ x = (c, elm false) /\ madec (split_dicts kvs) c.
Lemma split_dict_nonempty kvs : nonemptyb (split_dicts kvs) = nonemptyb kvs.
Proof. unfold split_dicts. destruct kvs as [|[k x] r]; [reflexivity|]. cbn [filter snd]. destruct (is_dict x); cbn [negb]; [destruct (filter _ r)|]; reflexivity. Qed.
Lemma elem_nonempty d x : elem d x -> cont_nonempty (fst x) = match d with PDict kvs => nonemptyb kvs | _ => false end.
Proof.
  intros (kvs & c & -> & -> & M). cbn [fst]. unfold cont_nonempty. rewrite (mc_dict _ _ M), map_length, <- split_dict_nonempty. destruct (split_dicts kvs); reflexivity.
Qed.
Lemma elements_text F k l xs : Forall2 elem l xs -> forall b, flat_map (fun p => render_aot_table (fst p) (snd p) (prefixed (pfx_of F) (key1 k))) (aotl b xs) = elements b (map (el (F ++ [k])) l).
Proof.
  induction 1 as [|d x l xs H G IH]; intros b; [reflexivity|]. cbn [aotl flat_map map]. rewrite (elem_nonempty d x H), IH. destruct H as (kvs & c & -> & -> & M). rewrite el_split. cbn [elements].
  replace (if b then nl_indent (c, elm false) else (c, elm false)) with (c, elm b) by (destruct b; reflexivity). cbn [fst snd]. rewrite render_aot_eq. rewrite <- path_snoc. replace (Some (path_text (F ++ [k]))) with (pfx_of (F ++ [k])) by (destruct F; reflexivity).
  rewrite (mc_text _ _ M). unfold header, hdr, elm. cbn [tm_trivia tr_indent tr_cws tr_comment tr_trail]. fold (blank b). cbn [app]. rewrite <- ?app_assoc. cbn [app]. rewrite <- ?app_assoc. reflexivity.
Qed.
Lemma elem_inval d x b : elem d x -> (let '(c, m) := if (b : bool) then nl_indent x else x in (inval_cont c, mkTM (tm_trivia m) (tm_aot m) (tm_super m) (tm_name m) None)) = (if b then nl_indent x else x).
Proof. intros (kvs & c & -> & -> & M). replace (if b then nl_indent (c, elm false) else (c, elm false)) with (c, elm b) by (destruct b; reflexivity). rewrite (quiet_inval c) by apply M. reflexivity. Qed.
Lemma aotl_inval l xs : Forall2 elem l xs -> forall b, map (fun x : tab => let '(c, m) := x in (inval_cont c, mkTM (tm_trivia m) (tm_aot m) (tm_super m) (tm_name m) None)) (aotl b xs) = aotl b xs.
Proof. induction 1 as [|d x l xs H G IH]; intros b; [reflexivity|]. cbn [aotl map]. rewrite IH. f_equal. exact (elem_inval d x b H). Qed.
Lemma aot_made l xs : l <> [] -> Forall2 elem l xs -> tabv (aot_of xs) /\ RT (PList l) (aot_of xs).
Proof.
  intros Ne F2. unfold aot_of, aot_make. rewrite aot_fold by (clear -F2; induction F2 as [|d x l xs (kvs & c & -> & -> & _) G IH]; [constructor|constructor; [reflexivity|exact IH]]). cbn [rev app].
  pose proof (aotl_inval l xs F2 false) as Iv. destruct F2 as [|d x l xs H F2]; [congruence|]. split.
  - split; [|cbn [aotl]; destruct H as (kvs & c & -> & -> & _); split; reflexivity]. split; [reflexivity|]. split; [reflexivity|]. cbn [inval_item]. rewrite Iv. reflexivity.
  - intros F k b. cbn [aotl dress]. unfold ent. cbn [fst snd Render.etext]. rewrite ttext_list. rewrite <- (elements_text F k (d :: l) (x :: xs)) by (constructor; assumption). cbn [aotl flat_map]. fold (key1 k).
    rewrite app_assoc. f_equal. destruct H as (kvs & c & -> & -> & _). destruct b; [|reflexivity]. cbn [nl_indent fst snd]. rewrite !render_aot_eq. unfold header. cbn [set_tm_trivia tm_trivia elm with_indent tr_indent blank app]. reflexivity.
Qed.

(** * Every value *)
Definition made_plain (v : pyv) : Prop := forall pk, pk_inline pk = true \/ tablish v = false -> exists i, py_item pk v = Ok i /\ plainv i /\ item_string i = vtext false v.
Definition made_table (v : pyv) : Prop := forall pk, pk_inline pk = false -> tablish v = true -> exists i, py_item pk v = Ok i /\ tabv i /\ RT v i.
Definition made (v : pyv) : Prop := made_plain v /\ made_table v.
Definition parts (v : pyv) : Prop := match v with PDict kvs => NoDup (map fst kvs) /\ Forall (fun kv => made (snd kv)) kvs | _ => True end.
Lemma scalar_plain v : is_dict v = false -> (forall l, v <> PList l) -> exists i, (forall pk, py_item pk v = Ok i) /\ plainv i /\ item_string i = vtext false v.
Proof.
  intros D Nl. destruct v as [s|z|b|f|d|t|d|l|l]; try (exfalso; apply (Nl l); reflexivity); try discriminate D;
    try (eexists; split; [intros pk; reflexivity|]; repeat split; reflexivity).
Qed.
Lemma inl_bare i : plainv i -> inlv i /\ inlv (bare_trail true i) /\ item_string (bare_trail true i) = item_string i.
Proof. intros [P T]. unfold inlv, bare_trail. rewrite T. destruct i; try destruct P; cbn [item_trivia set_trivia with_trail default_trivia] in *; subst; repeat split; auto. Qed.
Lemma bare_none i : bare_trail false i = i. Proof. reflexivity. Qed.
Lemma parts_inline kvs : Forall (fun kv => made (snd kv)) kvs -> exists its,
  mapr (fun kv : str * pyv => let* i := py_item PkInline (snd kv) in Ok (fst kv, i)) kvs = Ok its /\
  Forall2 (fun (kv : str * pyv) ki => fst ki = fst kv /\ plainv (snd ki) /\ item_string (snd ki) = vtext false (snd kv)) kvs its.
Proof.
  intros F. apply mapr_forall2. eapply Forall_impl; [|exact F]. intros [k x] [H _]. cbn [fst snd] in *. destruct (H PkInline (or_introl eq_refl)) as (i & -> & P & S0). exists (k, i). repeat split; auto; apply P.
Qed.
Lemma parts_rel kvs : Forall (fun kv => made (snd kv)) kvs -> exists its,
  mapr (fun kv : str * pyv => let* i := py_item PkTable (snd kv) in Ok (fst kv, i)) kvs = Ok its /\ Forall2 rel kvs its.
Proof.
  intros F. apply mapr_forall2. eapply Forall_impl; [|exact F]. intros [k x] [H1 H2]. cbn [fst snd] in *. destruct (tablish x) eqn:Tx.
  - destruct (H2 PkTable eq_refl Tx) as (i & -> & T & R). exists (k, i). split; [reflexivity|]. split; [reflexivity|]. cbn [fst snd]. rewrite Tx. split; [discriminate|auto].
  - destruct (H1 PkTable (or_intror Tx)) as (i & -> & P & S0). exists (k, i). split; [reflexivity|]. split; [reflexivity|]. cbn [fst snd]. rewrite Tx. split; [auto|discriminate].
Qed.
Lemma forall2_filter {A B} (R : A -> B -> Prop) (f : A -> bool) (g : B -> bool) l r : Forall2 (fun a b => g b = f a /\ R a b) l r -> Forall2 R (filter f l) (filter g r).
Proof. induction 1 as [|a b l r [E H] F IH]; [constructor|]. cbn [filter]. rewrite E. destruct (f a); [constructor|]; assumption. Qed.
Lemma dl_forall2 {B} (R : str * pyv -> B -> Prop) kvs (its : list (bool * B)) : Forall2 (fun kv bi => fst bi = is_dict (snd kv) /\ R kv (snd bi)) kvs its -> Forall2 R (split_dicts kvs) (dicts_last its).
Proof.
  intros F. unfold split_dicts, dicts_last. apply Forall2_app.
  - induction F as [|kv [b i] kvs its [E H] F IH]; [constructor|]. cbn [filter fst snd] in *. subst b. destruct (is_dict (snd kv)); cbn [negb map]; [|constructor]; assumption.
  - induction F as [|kv [b i] kvs its [E H] F IH]; [constructor|]. cbn [filter fst snd] in *. subst b. destruct (is_dict (snd kv)); cbn [negb map]; [constructor|]; assumption.
Qed.
Lemma inline_both kvs its new : NoDup (map fst kvs) -> Forall2 (fun (kv : str * pyv) ki => fst ki = fst kv /\ inlv (snd ki) /\ item_string (snd ki) = vtext false (snd kv)) kvs its ->
  exists c, build (empty_cont false) its = Ok c /\ item_string (IInline c default_trivia new) = [chLCB] ++ join (if new then L ", " else L ",") (map (fun kv : str * pyv => key1 (fst kv) ++ L " = " ++ vtext false (snd kv)) kvs) ++ [chRCB].
Proof.
  intros Nd F. set (ss := map (fun kv : str * pyv => (fst kv, vtext false (snd kv))) kvs).
  assert (F' : Forall2 (fun (kt : str * str) ki => fst ki = fst kt /\ inlv (snd ki) /\ item_string (snd ki) = snd kt) ss its). { subst ss. clear Nd. induction F as [|kv ki kvs its H F IH]; [constructor|]. cbn [map]. constructor; assumption. }
  assert (Ek : map fst its = map fst kvs). { clear -F. induction F as [|kv ki kvs its (H & _) F IH]; [reflexivity|]. cbn [map]. congruence. }
  destruct (build_inline its ss F' (empty_cont false) []) as (c & E & Hb); [apply empty_consistent|reflexivity|constructor|cbn; rewrite Ek; exact Nd|]. exists c. split; [exact E|]. cbn [app] in Hb. rewrite (inline_made c ss new Hb). subst ss. rewrite map_map. reflexivity.
Qed.
Lemma split_nodup kvs : NoDup (map fst kvs) -> NoDup (map fst (split_dicts kvs)).
Proof. intros N. eapply Permutation_NoDup; [|exact N]. apply Permutation_map, filter_split. Qed.
Lemma elem_inline kvs : parts (PDict kvs) -> exists i, elem_item true (PDict kvs) = Ok i /\ real i /\ item_string i = vtext true (PDict kvs).
Proof.
  intros [Nd F]. cbn [elem_item dict_parent].
  destruct (mapr_forall2 (fun (kv : str * pyv) (bi : bool * (str * item)) => fst bi = is_dict (snd kv) /\ (fst (snd bi) = fst kv /\ inlv (snd (snd bi)) /\ item_string (snd (snd bi)) = vtext false (snd kv)))
     (fun kv : str * pyv => let* i := py_item PkInline (snd kv) in Ok (is_dict (snd kv), (fst kv, bare_trail true i))) kvs) as (its & -> & F2).
  { eapply Forall_impl; [|exact F]. intros [k x] [H _]. cbn [fst snd] in *. destruct (H PkInline (or_introl eq_refl)) as (i & -> & P & S0). exists (is_dict x, (k, bare_trail true i)). destruct (inl_bare i P) as (_ & I2 & I3). cbn [fst snd]. rewrite I3. repeat split; auto; apply I2. }
  cbn [rbind]. apply (dl_forall2 (fun (kv : str * pyv) (ki : str * item) => fst ki = fst kv /\ inlv (snd ki) /\ item_string (snd ki) = vtext false (snd kv))) in F2. destruct (inline_both (split_dicts kvs) (dicts_last its) true (split_nodup kvs Nd) F2) as (c & -> & T). cbn [rbind]. eexists. split; [reflexivity|]. split; [exact Logic.I|].
  cbn [new_dict]. rewrite T. cbn [vtext]. unfold split_dicts. rewrite <- dicts_last_map. do 4 f_equal. apply map_ext. intros [k x]. reflexivity.
Qed.
Lemma elem_table kvs : parts (PDict kvs) -> exists c, elem_item false (PDict kvs) = Ok (ITable c (elm false)) /\ madec (split_dicts kvs) c.
Proof.
  intros [Nd F]. cbn [elem_item dict_parent].
  destruct (mapr_forall2 (fun (kv : str * pyv) (bi : bool * (str * item)) => fst bi = is_dict (snd kv) /\ rel kv (snd bi))
     (fun kv : str * pyv => let* i := py_item PkTable (snd kv) in Ok (is_dict (snd kv), (fst kv, bare_trail false i))) kvs) as (its & -> & F2).
  { eapply Forall_impl; [|exact F]. intros [k x] [H1 H2]. cbn [fst snd] in *. destruct (tablish x) eqn:Tx.
    - destruct (H2 PkTable eq_refl Tx) as (i & -> & T & R). exists (is_dict x, (k, i)). split; [reflexivity|]. split; [reflexivity|]. split; [reflexivity|]. cbn [fst snd]. rewrite Tx. split; [discriminate|auto].
    - destruct (H1 PkTable (or_intror Tx)) as (i & -> & P & S0). exists (is_dict x, (k, i)). split; [reflexivity|]. split; [reflexivity|]. split; [reflexivity|]. cbn [fst snd]. rewrite Tx. split; [auto|discriminate]. }
  cbn [rbind]. apply (dl_forall2 rel) in F2. destruct (made_container _ _ F2 (split_nodup kvs Nd)) as (c & -> & M). exists c. split; [reflexivity|exact M].
Qed.
Lemma vtext_nodict v : is_dict v = false -> vtext true v = vtext false v. Proof. destruct v; try discriminate; reflexivity. Qed.
Lemma elems_inline l : Forall (fun v => made v /\ parts v) l -> exists its, mapr (elem_item true) l = Ok its /\ Forall real its /\ map item_string its = map (vtext true) l.
Proof.
  intros F. destruct (mapr_forall2 (fun v i => real i /\ item_string i = vtext true v) (elem_item true) l) as (its & E & F2).
  { eapply Forall_impl; [|exact F]. intros v [[H _] P]. cbv beta in *. destruct (is_dict v) eqn:D; [destruct v; try discriminate D; apply elem_inline, P|].
    destruct (H PkArray (or_introl eq_refl)) as (i & E & [Pi _] & S0). exists i. split; [destruct v; try discriminate D; exact E|]. split; [destruct i; try destruct Pi; exact Logic.I|]. rewrite S0, vtext_nodict by exact D. reflexivity. }
  exists its. split; [exact E|]. clear -F2. induction F2 as [|v i l its [R S0] F2 [IH1 IH2]]; [split; constructor|]. split; [constructor; assumption|]. cbn [map]. congruence.
Qed.
Lemma elems_table l : forallb is_dict l = true -> Forall (fun v => made v /\ parts v) l -> exists its, mapr (elem_item false) l = Ok its /\ Forall2 elem l (flat_map as_table its).
Proof.
  intros D F. destruct (mapr_forall2 (fun v i => exists c, i = ITable c (elm false) /\ elem v (c, elm false)) (elem_item false) l) as (its & E & F2).
  { rewrite forallb_forall in D. rewrite Forall_forall in *. intros v Hin. destruct (F _ Hin) as [_ P]. specialize (D _ Hin). destruct v as [ | | | | | | | |kvs]; try discriminate D. destruct (elem_table kvs P) as (c & -> & M). eexists. split; [reflexivity|]. exists c. split; [reflexivity|]. exists kvs, c. auto. }
  exists its. split; [exact E|]. clear -F2. induction F2 as [|v i l its (c & -> & R) F2 IH]; [constructor|]. cbn [flat_map as_table app]. constructor; assumption.
Qed.
Lemma list_made l : Forall (fun v => made v /\ parts v) l -> made (PList l).
Proof.
  intros F. split.
  - intros pk H. rewrite py_item_list. cbv zeta. assert (Wa : wants_aot pk l = false). { unfold wants_aot. destruct H as [H|H]; [destruct pk; try discriminate H; apply andb_false_r|]. cbn [tablish] in H. destruct l; [reflexivity|]. rewrite H. reflexivity. }
    rewrite Wa. cbn [negb]. destruct (elems_inline l F) as (its & -> & R & T). cbn [rbind]. destruct (array_made its R) as (a & -> & S0). cbn [rbind]. eexists. split; [reflexivity|]. split; [split; [exact Logic.I|reflexivity]|]. rewrite S0, T. reflexivity.
  - intros pk Hp T. rewrite py_item_list. cbv zeta. assert (Wa : wants_aot pk l = true). { unfold wants_aot. cbn [tablish] in T. destruct l; [discriminate|]. rewrite T. destruct pk; try discriminate Hp; reflexivity. }
    rewrite Wa. cbn [negb]. assert (Ne : l <> []) by (destruct l; [discriminate T|discriminate]). destruct (elems_table l) as (its & -> & E2); [destruct l; [discriminate T|exact T]|exact F|]. cbn [rbind]. eexists. split; [reflexivity|]. apply aot_made; assumption.
Qed.
Lemma dict_both kvs : parts (PDict kvs) -> made (PDict kvs).
Proof.
  intros [Nd F]. split.
  - intros pk [H|H]; [|discriminate H]. rewrite py_item_dict. cbv zeta. rewrite H. cbn [dict_parent]. destruct (parts_inline kvs F) as (its & -> & F2). cbn [rbind].
    destruct (inline_both kvs its false Nd) as (c & -> & T). { clear -F2. induction F2 as [|kv ki kvs its (A & B & C) F2 IH]; constructor; [|exact IH]. split; [exact A|]. split; [apply inl_bare, B|exact C]. }
    cbn [rbind]. eexists. split; [reflexivity|]. split; [split; [exact Logic.I|reflexivity]|]. cbn [new_dict]. rewrite T. cbn [vtext]. do 3 f_equal. rewrite map_map. apply map_ext. intros [k x]. reflexivity.
  - intros pk Hp _. rewrite py_item_dict. cbv zeta. rewrite Hp. cbn [dict_parent]. destruct (parts_rel kvs F) as (its & -> & R). cbn [rbind]. destruct (made_container kvs its R Nd) as (c & -> & M). cbn [rbind new_dict]. eexists. split; [reflexivity|]. apply dict_made, M.
Qed.
Lemma all_made v : py_ok v -> made v /\ parts v.
Proof.
  induction v as [s|z|b|f|d|t|d|l IH|kvs IH] using pyv_rect2; intros H;
    try (split; [|exact Logic.I]; match goal with |- made ?v => destruct (scalar_plain v eq_refl ltac:(discriminate)) as (i & E & P & S0) end;
         split; [intros pk _; exists i; split; [apply E|auto]|intros pk _ T; discriminate T]).
  - split; [|exact Logic.I]. apply list_made. inversion H as [l' Fl| | | | | | | | ]; subst. clear H. induction IH as [|v l Hv _ IH']; [constructor|]. apply Forall_cons_iff in Fl as [A B]. constructor; auto.
  - assert (P : parts (PDict kvs)). { inversion H as [|l' Nd Fl| | | | | | | ]; subst. split; [exact Nd|]. clear H Nd. induction IH as [|v l Hv _ IH']; [constructor|]. apply Forall_cons_iff in Fl as [A B]. constructor; [apply Hv, A|auto]. }
    split; [apply dict_both, P|exact P].
Qed.
(** [dumps] succeeds on every such dict and writes the text of DumpText. *)
Lemma dumps_text kvs : py_ok (PDict kvs) -> dumps kvs = Ok (doc_text kvs).
Proof.
  intros H. destruct (all_made _ H) as [_ [Nd F]]. unfold dumps. rewrite py_item_dict. cbv zeta. cbn [pk_inline dict_parent]. destruct (parts_rel kvs F) as (its & -> & R). cbn [rbind]. destruct (made_container kvs its R Nd) as (c & -> & M). cbn [rbind new_dict item_string].
  rewrite cont_string_eq. f_equal. exact (mc_text _ _ M []).
Qed.
Lemma fine_ok v : py_fine v -> py_ok v.
Proof.
  induction v as [s|z|b|f|d|t|d|l IH|kvs IH] using pyv_rect2; intros H; try constructor.
  - inversion H as [? B|? Fl|]; subst; [destruct B|]. clear H. induction IH as [|v l Hv _ IH']; [constructor|]. apply Forall_cons_iff in Fl as [A B]. constructor; auto.
  - inversion H as [? B| |? Nd Fl]; subst; [destruct B|]. exact Nd.
  - inversion H as [? B| |? Nd Fl]; subst; [destruct B|]. clear H Nd. induction IH as [|v l Hv _ IH']; [constructor|]. apply Forall_cons_iff in Fl as [A B]. constructor; auto.
Qed.
