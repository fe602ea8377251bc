(** Wf: an invariant of the containers the parser builds, and the exceptions that
    [Container.append] can raise on them. *)
From Verif Require Import Base Source Utils Items Container Arrays Parser Lemmas.
From Verif Require Export Consist.
From Coq Require Import ZifyBool ZifyNat ZifyN Sorting.Sorted.
Open Scope nat_scope.

(** Induction over the item tree. *)
Section ItemInd.
  Variables (P : item -> Prop) (Q : container -> Prop).
  Definition oP (o : option item) : Prop := match o with Some x => P x | None => True end.
  Definition gP (g : agroup item) : Prop := oP (g_value g).
  Hypotheses
    (Hws : forall s f, P (IWs s f)) (Hcm : forall t, P (IComment t)) (Hnull : P INull) (Hval : forall v t, P (IVal v t))
    (Harr : forall gs t ml, Forall gP gs -> P (IArray gs t ml))
    (Hinl : forall c t n, Q c -> P (IInline c t n))
    (Htab : forall c m, Q c -> P (ITable c m))
    (Haot : forall l n p t, Forall (fun x => Q (fst x)) l -> P (IAoT l n p t))
    (Hcont : forall body m p tks d, Forall (fun kv => P (snd kv)) body -> Q (Cont body m p tks d)).
  Fixpoint item_rect2 (i : item) : P i :=
    match i with
    | IWs s f => Hws s f
    | IComment t => Hcm t
    | INull => Hnull
    | IVal v t => Hval v t
    | IArray gs t ml =>
        Harr gs t ml ((fix go (l : list (agroup item)) : Forall gP l :=
          match l with
          | [] => Forall_nil _
          | g :: l' => @Forall_cons _ gP g l'
              (match g as g0 return gP g0 with
               | mkGroup _ v _ _ => match v as v0 return oP v0 with
                                    | Some x => item_rect2 x | None => I end
               end) (go l')
          end) gs)
    | IInline c t n => Hinl c t n (cont_rect2 c)
    | ITable c m => Htab c m (cont_rect2 c)
    | IAoT l n p t =>
        Haot l n p t ((fix go (l : list (container * tmeta)) : Forall (fun x => Q (fst x)) l :=
          match l with
          | [] => Forall_nil _
          | x :: l' => Forall_cons x (match x as x0 return Q (fst x0) with (c, _) => cont_rect2 c end) (go l')
          end) l)
    end
  with cont_rect2 (c : container) : Q c :=
    match c with
    | Cont body m p tks d =>
        Hcont body m p tks d ((fix go (l : list (option skey * item)) : Forall (fun kv => P (snd kv)) l :=
          match l with
          | [] => Forall_nil _
          | x :: l' => Forall_cons x (match x as x0 return P (snd x0) with (_, v) => item_rect2 v end) (go l')
          end) body)
    end.
  Lemma item_cont_ind : (forall i, P i) /\ (forall c, Q c).
  Proof. split; [exact item_rect2|exact cont_rect2]. Qed.
End ItemInd.

Definition tk_ok (body : list (option skey * item)) (tks : list str) : Prop :=
  Forall (fun kv : option skey * item => fst kv <> None -> is_table (snd kv) = true -> tks <> []) body.

(** The keys in the order in which they first appear. *)
Definition firsts (body : list (option skey * item)) : list str :=
  fold_left (fun d (kv : option skey * item) => match fst kv with Some k => dict_set (k_key k) d | None => d end) body [].
(** The dict lists the keys in that order; the entries of a key are listed from
    first to last. *)
Definition ordered (body : list (option skey * item)) (m : list (str * cidx)) (d : list str) : Prop :=
  d = firsts body /\ forall k ci, map_get k m = Some ci -> StronglySorted lt (idxs ci).
(** The groups of an array as [_group_values] makes them. *)
Definition has_value (g : agroup item) : Prop := g_value g <> None.
Definition group_ok (g : agroup item) : Prop :=
  g <> mkGroup None None None None /\ (forall s, g_indent g = Some s -> inb chCOMMA s = false) /\ (forall s, g_comma g = Some s -> inb chCOMMA s = true)
  /\ (g_comma g <> None -> has_value g) /\ (g_comment g <> None -> has_value g).
Fixpoint groups_ok (first : bool) (gs : list (agroup item)) : Prop :=
  match gs with
  | [] => True
  | g :: gs' => group_ok g /\ (g_indent g = None -> first = true) /\ groups_ok (match g_value g with Some _ => true | None => false end) gs'
  end.
Definition is_leaf (i : item) : bool := match i with IWs _ _ | IComment _ | INull | IVal _ _ => true | _ => false end.

Lemma firsts_end body k v : firsts (body ++ [(k, v)]) = match k with Some k => dict_set (k_key k) (firsts body) | None => firsts body end.
Proof. unfold firsts. rewrite fold_left_app. reflexivity. Qed.
Lemma firsts_app a b : firsts (a ++ b) = fold_left (fun d (kv : option skey * item) => match fst kv with Some k => dict_set (k_key k) d | None => d end) b (firsts a).
Proof. unfold firsts. rewrite fold_left_app. reflexivity. Qed.
Definition kname (kv : option skey * item) : option str := option_map k_key (fst kv).
Lemma firsts_keys b : forall b' d, map kname b = map kname b' -> fold_left (fun d (kv : option skey * item) => match fst kv with Some k => dict_set (k_key k) d | None => d end) b d
  = fold_left (fun d (kv : option skey * item) => match fst kv with Some k => dict_set (k_key k) d | None => d end) b' d.
Proof.
  induction b as [|[k v] b IH]; intros [|[k' v'] b'] d H; try discriminate; [reflexivity|]. cbn [map] in H. injection H as H1 H2. cbn [fold_left fst].
  unfold kname in H1. cbn [fst] in H1. destruct k as [k|], k' as [k'|]; try discriminate; cbn in H1; [injection H1 as ->|]; apply IH, H2.
Qed.
Lemma kname_set body n k v x : nth_error body n = Some x -> kname x = kname (k, v) -> map kname (list_set n (k, v) body) = map kname body.
Proof.
  revert n. induction body as [|y body IH]; intros [|n] H E; try discriminate; cbn in *; [injection H as ->; rewrite E; reflexivity|]. f_equal. apply IH; assumption.
Qed.
Lemma in_firsts body sk v i : nth_error body i = Some (Some sk, v) -> In (k_key sk) (firsts body).
Proof.
  intros H. apply nth_error_split in H as (a & b & -> & _). rewrite firsts_app. cbn [fold_left fst].
  assert (G : forall b d k, In k d -> In k (fold_left (fun d (kv : option skey * item) => match fst kv with Some k => dict_set (k_key k) d | None => d end) b d)).
  { induction b0 as [|[k0 v0] b0 IH]; intros d k Hk; [exact Hk|]. cbn [fold_left fst]. apply IH. destruct k0; [|exact Hk]. apply in_dict_set. right. exact Hk. }
  apply G, in_dict_set. left. reflexivity.
Qed.
(** A later entry of a key does not matter. *)
Lemma firsts_drop body i j sk sj vi vj : i < j -> nth_error body i = Some (Some sk, vi) -> nth_error body j = Some (Some sj, vj) -> k_key sj = k_key sk ->
  firsts (list_set j (@None skey, INull) body) = firsts body.
Proof.
  intros Hij Hi Hj E. apply nth_error_split in Hj as (a & b & -> & <-).
  assert (X : list_set (List.length a) (@None skey, INull) (a ++ (Some sj, vj) :: b) = a ++ (None, INull) :: b).
  { clear. induction a as [|x a IH]; cbn; [reflexivity|f_equal; exact IH]. }
  rewrite X, !firsts_app. cbn [fold_left fst]. rewrite nth_error_app1 in Hi by exact Hij. rewrite (dict_set_in (k_key sj)); [reflexivity|]. rewrite E. exact (in_firsts _ _ _ _ Hi).
Qed.
Lemma firsts_drops i sk vi l : forall body, nth_error body i = Some (Some sk, vi) -> Forall (lt i) l -> NoDup l ->
  Forall (fun j => exists sj vj, nth_error body j = Some (Some sj, vj) /\ k_key sj = k_key sk) l ->
  firsts (fold_left (fun b x => list_set x (@None skey, INull) b) l body) = firsts body.
Proof.
  induction l as [|j l IH]; intros body Hi Hl Nd Hk; [reflexivity|]. inversion Hl as [|? ? L1 L2]; subst. inversion Hk as [|? ? (sj & vj & K1 & K2) K3]; subst. inversion Nd as [|? ? N1 N2]; subst. cbn [fold_left].
  rewrite IH; [exact (firsts_drop _ _ _ _ _ _ _ L1 Hi K1 K2)| |exact L2|exact N2|].
  - rewrite nth_list_set. destruct (Nat.eqb_spec i j); [lia|exact Hi].
  - rewrite Forall_forall in *. intros x Hx. destruct (K3 x Hx) as (sx & vx & X1 & X2). exists sx, vx. split; [|exact X2]. rewrite nth_list_set. destruct (Nat.eqb_spec x j) as [->|]; [contradiction|exact X1].
Qed.
Lemma sorted_end l n : StronglySorted lt l -> Forall (fun i => i < n) l -> StronglySorted lt (l ++ [n]).
Proof.
  induction l as [|x l IH]; intros H F; cbn [app]; [constructor; constructor|]. inversion H; subst. inversion F; subst. constructor; [apply IH; assumption|]. apply Forall_app. split; [assumption|constructor; [assumption|constructor]].
Qed.
Lemma ordered_set body m d n k v x : ordered body m d -> nth_error body n = Some x -> kname x = kname (k, v) -> ordered (list_set n (k, v) body) m d.
Proof. intros [H1 H2] E K. split; [|exact H2]. rewrite H1. unfold firsts. apply firsts_keys. symmetry. eapply kname_set; eassumption. Qed.
Lemma ordered_none body m d v : ordered body m d -> ordered (body ++ [(None, v)]) m d.
Proof. intros [H1 H2]. split; [rewrite firsts_end; exact H1|exact H2]. Qed.
Lemma ordered_one body m d k v : ordered body m d -> ordered (body ++ [(Some k, v)]) (map_set (k_key k) (One (List.length body)) m) (dict_set (k_key k) d).
Proof.
  intros [H1 H2]. split; [rewrite firsts_end, H1; reflexivity|]. intros k2 ci. rewrite map_get_set. destruct (str_eqb k2 (k_key k)); [|apply H2]. intros X. inversion X. repeat constructor.
Qed.
Lemma ordered_more body m d k v ci : ordered body m d -> map_ok body m -> map_get (k_key k) m = Some ci ->
  ordered (body ++ [(Some k, v)]) (map_set (k_key k) (Many (idxs ci ++ [List.length body])) m) (dict_set (k_key k) d).
Proof.
  intros [H1 H2] Hm E. split; [rewrite firsts_end, H1; reflexivity|]. intros k2 ci2. rewrite map_get_set. destruct (str_eqb k2 (k_key k)); [|apply H2]. intros X. inversion X. cbn [idxs]. apply sorted_end; [exact (H2 _ _ E)|].
  destruct (Hm _ _ E) as (_ & _ & F). eapply Forall_impl; [|exact F]. intros i Hi. eapply keyed_lt, Hi.
Qed.

Definition tab_ok (nosp noaot : bool) (m : tmeta) : Prop :=
  (nosp = true -> first_spaces (tr_indent (tm_trivia m)) = None) /\ (noaot = true -> tm_aot m = false).
(** [nosp]: no table is indented with spaces; [noaot]: there is no array of
    tables; [deep]: also the values inside arrays and inline tables. *)
Inductive wfi (nosp noaot deep : bool) : item -> Prop :=
  | wf_table c m : tab_ok nosp noaot m -> wfc nosp noaot deep c -> wfi nosp noaot deep (ITable c m)
  | wf_aot l n t : noaot = false -> (nosp = true -> t = aot_trivia) -> Forall (fun x => tab_ok nosp noaot (snd x) /\ wfc nosp noaot deep (fst x)) l ->
      wfi nosp noaot deep (IAoT l n true t)
  | wf_leaf i : is_leaf i = true -> wfi nosp noaot deep i
  | wf_any i : deep = false -> is_table_or_aot i = false -> wfi nosp noaot deep i
  | wf_array gs t ml : groups_ok true gs -> Forall (fun g => forall v, g_value g = Some v -> is_deco v = false /\ wfi true true deep v) gs ->
      wfi nosp noaot deep (IArray gs t ml)
  | wf_inline c t : wfc true true deep c -> wfi nosp noaot deep (IInline c t false)
with wfc (nosp noaot deep : bool) : container -> Prop :=
  | wf_cont body m tks d : Forall (fun kv => wfi nosp noaot deep (snd kv)) body -> map_ok body m -> tk_ok body tks -> full body m d -> ordered body m d ->
      wfc nosp noaot deep (Cont body m true tks d).
Arguments wf_table {nosp noaot deep}. Arguments wf_aot {nosp noaot deep}. Arguments wf_leaf {nosp noaot deep}. Arguments wf_any {nosp noaot deep}.
Arguments wf_array {nosp noaot deep}. Arguments wf_inline {nosp noaot deep}. Arguments wf_cont {nosp noaot deep}.

Section Wf.
(** [strict]: a strict run. *)
Variables (nosp noaot deep strict : bool).
Local Notation wi := (wfi nosp noaot deep).
Local Notation wc := (wfc nosp noaot deep).
Local Notation tok := (tab_ok nosp noaot).

Definition okerr (e : exn) : Prop :=
  match e with
  | KeyAlreadyPresentE _ | TOMLKitErrorE | FuelE => True
  | AttributeErrorE => nosp = false
  | UnmodelledE => nosp = false \/ noaot = false
  | LossyE _ => strict = true
  | _ => False
  end.
Definition rok {A} (P : A -> Prop) (r : res A) : Prop := match r with Ok a => P a | Err e => okerr e end.

Lemma rok_bind {A B} (P : A -> Prop) (Q : B -> Prop) r (f : A -> res B) :
  rok P r -> (forall a, P a -> rok Q (f a)) -> rok Q (rbind r f).
Proof. destruct r; cbn; auto. Qed.
Lemma rok_fold {A B} (I : B -> Prop) (f : B -> A -> res B) l : forall b,
  I b -> (forall b x, In x l -> I b -> rok I (f b x)) -> rok I (fold_res f l b).
Proof.
  induction l as [|x l IH]; intros b Hb Hf; cbn [fold_res]; [exact Hb|].
  pose proof (Hf b x (or_introl eq_refl) Hb) as H. destruct (f b x); cbn [rok] in *; [|exact H].
  apply IH; [exact H|]. intros; apply Hf; [right|]; assumption.
Qed.
Lemma rok_impl {A} (P Q : A -> Prop) r : (forall a, P a -> Q a) -> rok P r -> rok Q r.
Proof. destruct r; cbn; auto. Qed.

Lemma tk_ok_set body tks n ck v v' :
  nth_error body n = Some (ck, v) -> (is_table v' = true -> is_table v = true) ->
  tk_ok body tks -> tk_ok (list_set n (ck, v') body) tks.
Proof.
  intros Hn Hv H. apply Forall_list_set; [exact H|]. cbn. intros H1 H2.
  eapply Forall_forall in H; [|eapply nth_error_In; exact Hn]. apply H; auto.
Qed.
Lemma wfc_set body m tks d n ck v v' :
  wc (Cont body m true tks d) -> nth_error body n = Some (ck, v) -> is_table v' = is_table v -> wi v' ->
  wc (Cont (list_set n (ck, v') body) m true tks d).
Proof.
  intros H Hn Hv Hw. inversion H; subst. constructor.
  - apply Forall_list_set; auto.
  - eapply map_ok_set; eauto; congruence.
  - eapply tk_ok_set; eauto; congruence.
  - eapply full_set; eauto.
  - eapply ordered_set; eauto.
Qed.
Lemma wfc_parsed c : wc c -> c_parsed c = true.
Proof. intros H; inversion H; reflexivity. Qed.
Lemma wfc_empty : wc (empty_cont true).
Proof. constructor; [constructor|intros k ci H; discriminate|constructor|exact full_empty|split; [reflexivity|intros; discriminate]]. Qed.
Lemma wfc_in c i kv : wc c -> nth_error (c_body c) i = Some kv -> wi (snd kv).
Proof. intros H Hn. inversion H; subst. eapply Forall_forall in H0; [exact H0|]. eapply nth_error_In; exact Hn. Qed.
Lemma wfc_body c : wc c -> Forall (fun kv => wi (snd kv)) (c_body c).
Proof. intros H; inversion H; assumption. Qed.
Lemma wfi_table c m : wi (ITable c m) -> wc c /\ tok m.
Proof. intros H; inversion H; subst; auto; discriminate. Qed.
Lemma wfi_aot l n p t : wi (IAoT l n p t) -> noaot = false /\ (nosp = true -> t = aot_trivia) /\ Forall (fun x => tok (snd x) /\ wc (fst x)) l /\ p = true.
Proof. intros H; inversion H; subst; auto; discriminate. Qed.
Lemma no_spaces t : (nosp = true -> t = aot_trivia) -> nosp = true -> first_spaces (tr_indent t) = None.
Proof. intros H E. rewrite (H E). reflexivity. Qed.

Definition key_fine (k : option key) : Prop :=
  match k with Some (KDotted ks _ _) => 2 <= List.length ks | _ => True end.
Definition first_key (k : option key) : option str :=
  option_map (fun k => match key_parts k with x :: _ => k_key x | [] => [] end) k.
Definition has (k : option str) (c : container) : Prop :=
  match k with Some k => exists ci, map_get k (c_map c) = Some ci | None => True end.

Lemma last_in {A} (l : list A) d : l <> [] -> In (last l d) l.
Proof.
  induction l as [|x l IH]; [congruence|]. intros _. destruct l as [|y l]; [left; reflexivity|].
  right. apply IH. discriminate.
Qed.

Lemma raw_append_ok body m tks d k it :
  wc (Cont body m true tks d) -> wi it ->
  (match k with Some k' => map_get (k_key k') m = None \/ is_table it = true | None => is_table it = false \/ True end) ->
  rok (fun c => wc c /\ has (option_map k_key k) c) (raw_append (Cont body m true tks d) k it).
Proof.
  intros H Hw Hk. inversion H as [? ? ? ? Hb Hm Ht Hf Ho]; subst. unfold raw_append. destruct k as [k|].
  - assert (F : forall m', map_ok (body ++ [(Some k, it)]) m' -> full (body ++ [(Some k, it)]) m' (dict_set (k_key k) d) -> ordered (body ++ [(Some k, it)]) m' (dict_set (k_key k) d) ->
      wc (Cont (body ++ [(Some k, it)]) m' true (if is_table it then tks ++ [k_key k] else tks) (dict_set (k_key k) d))).
    { intros m' Hm' Hf' Ho'. constructor; [|exact Hm'| |exact Hf'|exact Ho'].
      - apply Forall_app; split; [exact Hb|]. constructor; [exact Hw|constructor].
      - unfold tk_ok in *. apply Forall_app; split.
        + eapply Forall_impl; [|exact Ht]. cbn. intros kv Hkv A B. specialize (Hkv A B).
          destruct (is_table it); [|exact Hkv]. destruct tks; discriminate.
        + constructor; [|constructor]. cbn. intros _ ->. destruct tks; discriminate. }
    destruct (map_get (k_key k) m) as [ci|] eqn:Em.
    + destruct (Hm _ _ Em) as (N1 & N2 & N3). change (match ci with One x => [x] | Many l => l end) with (idxs ci).
      assert (Hl : keyed (match ci with Many _ => true | One _ => false end) body (k_key k) (last (idxs ci) 0)).
      { eapply Forall_forall in N3; [exact N3|]. apply last_in, roomy_ne, N1. }
      destruct Hl as (sk & cur & E & K & T). rewrite E.
      destruct (is_table cur) eqn:Et; cbn [rbind rok]; [|exact I]. split; [apply F; [|apply full_more; assumption|apply ordered_more; assumption]|].
      * intros k2 ci2. rewrite map_get_set. destruct (str_eqb k2 (k_key k)) eqn:E2.
        -- intros X; inversion X; subst. apply str_eqb_eq in E2; subst k2. cbn [idxs].
           assert (It : is_table it = true) by (destruct Hk; congruence). split; [cbn [roomy]; rewrite app_length; cbn [List.length]; pose proof (roomy_ne ci N1); destruct (idxs ci); [congruence|cbn [List.length]; lia]|]. split.
           ++ apply NoDup_rev in N2. rewrite <- (rev_involutive (idxs ci ++ _)), rev_app_distr. apply NoDup_rev. cbn. constructor; [|exact N2].
              rewrite <- in_rev. intros Hin. eapply Forall_forall in N3; [|exact Hin]. apply keyed_lt in N3. lia.
           ++ apply Forall_app; split.
              ** rewrite Forall_forall in *. intros i Hi. specialize (N3 i Hi). apply keyed_app.
                 destruct ci as [n|l]; [|exact N3]. cbn [idxs] in Hi. destruct Hi as [<-|[]]. cbn [idxs last] in E.
                 exists sk, cur. auto.
              ** constructor; [|constructor]. exists k, it. rewrite nth_error_app2, Nat.sub_diag by lia. cbn. auto.
        -- intros X. destruct (Hm _ _ X) as (A1 & A2 & A3). split; [exact A1|]. split; [exact A2|].
           eapply Forall_impl; [|exact A3]. intros; apply keyed_app; assumption.
      * cbn [option_map has c_map]. rewrite map_get_set, str_eqb_refl. eauto.
    + cbn [rbind rok]. split; [apply F; [|apply full_one; assumption|apply ordered_one; assumption]|].
      * intros k2 ci2. rewrite map_get_set. destruct (str_eqb k2 (k_key k)) eqn:E2.
        -- intros X; inversion X; subst. apply str_eqb_eq in E2; subst k2. cbn [idxs]. split; [exact I|].
           split; [repeat constructor; simpl; tauto|]. constructor; [|constructor].
           exists k, it. rewrite nth_error_app2, Nat.sub_diag by lia. cbn. repeat split; auto; discriminate.
        -- intros X. destruct (Hm _ _ X) as (A1 & A2 & A3). split; [exact A1|]. split; [exact A2|].
           eapply Forall_impl; [|exact A3]. intros; apply keyed_app; assumption.
      * cbn [option_map has c_map]. rewrite map_get_set, str_eqb_refl. eauto.
  - cbn [rok option_map has]. split; [|exact I]. constructor.
    + apply Forall_app; split; [exact Hb|]. constructor; [exact Hw|constructor].
    + intros k2 ci2 X. destruct (Hm _ _ X) as (A1 & A2 & A3). split; [exact A1|]. split; [exact A2|].
      eapply Forall_impl; [|exact A3]. intros; apply keyed_app; assumption.
    + unfold tk_ok in *. apply Forall_app; split; [exact Ht|]. constructor; [|constructor]. cbn. congruence.
    + apply full_none, Hf.
    + apply ordered_none, Ho.
Qed.

Definition elem_ok (x : container * tmeta) : Prop := tok (snd x) /\ wc (fst x).
Lemma Forall_insert {A} (P : A -> Prop) n x l : Forall P l -> P x -> Forall P (list_insert n x l).
Proof.
  intros H Hx. unfold list_insert. rewrite <- (firstn_skipn n l) in H. apply Forall_app in H as [H1 H2].
  apply Forall_app. split; [exact H1|]. constructor; assumption.
Qed.
Lemma first_spaces_nl s : first_spaces (chLF :: s) = first_spaces s.
Proof. reflexivity. Qed.
Lemma nl_indent_ok x : elem_ok x -> elem_ok (nl_indent x).
Proof.
  destruct x as [c m]. unfold elem_ok, nl_indent, tok. cbn [fst snd]. destruct m as [[i w cm tl] a su n d]. cbn.
  intros ((A & B) & C). repeat split; auto.
Qed.
Lemma aot_insert_ok l p t i x : Forall elem_ok l -> elem_ok x -> (nosp = true -> first_spaces (tr_indent t) = None) ->
  Forall elem_ok (aot_insert l p t i x).
Proof.
  intros Hl Hx Ht. unfold aot_insert.
  set (x' := match first_spaces (tr_indent t) with Some _ => _ | None => x end).
  assert (Hx' : elem_ok x').
  { unfold x'. destruct (first_spaces (tr_indent t)) as [ind|] eqn:E; [|exact Hx]. destruct x as [c [[i0 w cm tl] a su n d]].
    destruct Hx as [[H1 H2] H3]. split; [split|]; cbn in *; auto. intros H. specialize (Ht H). discriminate. }
  clearbody x'. clear x Hx. rename x' into x, Hx' into Hx. destruct p; [apply Forall_insert; assumption|].
  apply Forall_insert.
  - destruct (Nat.ltb _ _); [|exact Hl]. destruct (nth_error l _) as [y|] eqn:E; [|exact Hl].
    destruct (_ && _); [|exact Hl]. apply Forall_list_set; [exact Hl|]. apply nl_indent_ok.
    eapply Forall_forall in Hl; [exact Hl|]. eapply nth_error_In; exact E.
  - destruct (_ && _); [apply nl_indent_ok|]; assumption.
Qed.
Lemma aot_appends_ok p t il : forall l, Forall elem_ok l -> Forall elem_ok il -> (nosp = true -> first_spaces (tr_indent t) = None) ->
  Forall elem_ok (fold_left (fun l x => aot_append l p t x) il l).
Proof.
  induction il as [|x il IH]; intros l Hl Hi Ht; cbn [fold_left]; [exact Hl|].
  inversion Hi; subst. apply IH; auto. apply aot_insert_ok; auto.
Qed.
Lemma aot_make_ok l n : noaot = false -> Forall elem_ok l -> wi (aot_make l n true).
Proof. intros H Hl. unfold aot_make. constructor; [exact H|reflexivity|]. apply (aot_appends_ok true aot_trivia l []); auto. Qed.

Lemma set_name_ok k it : wi it -> wi (set_name k it) /\ is_table (set_name k it) = is_table it /\ is_aot (set_name k it) = is_aot it.
Proof.
  intros H. destruct it as [| | | | | |c m|l n p t]; cbn [set_name]; auto.
  - destruct m as [t a su [nm|] di]; cbn [tm_name]; [auto|]. split; [|auto]. apply wfi_table in H as [H1 H2].
    constructor; [|exact H1]. exact H2.
  - destruct n; [auto|]. split; [|auto]. apply wfi_aot in H as (A & B & C & ->). constructor; auto.
Qed.
Lemma pre_append_parsed body m tks d k it : pre_append (Cont body m true tks d) k it = it.
Proof.
  unfold pre_append. destruct it as [| | | | | |c m0|l n p t]; try reflexivity.
  - cbn [negb orb]. rewrite andb_false_r. reflexivity.
  - rewrite andb_false_r. reflexivity.
Qed.
Lemma append_end_parsed body m tks d k it :
  append_end (Cont body m true tks d) k it = raw_append (Cont body m true tks d) k it.
Proof.
  unfold append_end. destruct k; [|reflexivity]. cbn [negb]. rewrite andb_false_r. reflexivity.
Qed.

Lemma singleton_ok k it : wi it -> wc (singleton k it).
Proof.
  intros H. constructor.
  - constructor; [exact H|constructor].
  - intros k2 ci. cbn [map_get]. destruct (str_eqb k2 (k_key k)) eqn:E; [|discriminate]. intros X; inversion X; subst.
    apply str_eqb_eq in E. subst. cbn [idxs]. split; [exact I|]. split; [repeat constructor; simpl; tauto|].
    constructor; [|constructor]. exists k, it. repeat split; auto; discriminate.
  - constructor; [|constructor]. cbn. intros _ ->. discriminate.
  - apply full_single.
  - split; [reflexivity|]. intros k2 ci. cbn [map_get]. destruct (str_eqb k2 (k_key k)); [|discriminate]. intros X; inversion X. repeat constructor.
Qed.
Lemma super_meta_ok n : tok (super_meta n).
Proof. split; reflexivity. Qed.
Lemma dotted_table_ok sep it : wi it -> forall parts, wc (dotted_table parts sep it).
Proof.
  intros H. induction parts as [|x parts IH]; cbn [dotted_table]; [apply wfc_empty|].
  destruct parts as [|y parts]; [apply singleton_ok; exact H|]. apply singleton_ok. constructor; [apply super_meta_ok|exact IH].
Qed.

(** [invalidate_display_name] *)
Lemma inval_ok : (forall i, wi i -> wi (inval_item i)) /\ (forall c, wc c -> wc (inval_cont c)).
Proof.
  assert (Kind : forall i, is_table (inval_item i) = is_table i) by (intros []; reflexivity).
  apply item_cont_ind; try (intros; assumption).
  - intros c m IH H. apply wfi_table in H as [H1 H2]. cbn [inval_item]. constructor; [exact H2|]. apply IH, H1.
  - intros l n p t IH H. apply wfi_aot in H as (A & B & C & ->). cbn [inval_item]. constructor; [exact A|exact B|].
    rewrite Forall_forall in *. intros x Hx. apply in_map_iff in Hx as ([c m] & <- & Hin).
    destruct (C _ Hin) as [C1 C2]. cbn [fst snd] in *. split; [exact C1|]. apply (IH _ Hin), C2.
  - intros body m p tks d IH H. inversion H as [? ? ? ? Hb Hm Ht Hfl Ho]; subst. cbn [inval_cont].
    set (f := fun kv : option skey * item => _).
    assert (Hf : forall kv, fst (f kv) = fst kv /\ is_table (snd (f kv)) = is_table (snd kv)
                            /\ (snd (f kv) = snd kv \/ snd (f kv) = inval_item (snd kv))).
    { intros [[k|] v]; unfold f; cbn [fst snd]; [|auto]. destruct (map_get _ _) as [[]|]; cbn [fst snd]; rewrite ?Kind; auto. }
    constructor.
    + rewrite Forall_forall in *. intros x Hx. apply in_map_iff in Hx as (kv & <- & Hin).
      destruct (Hf kv) as (_ & _ & [->| ->]); [apply Hb, Hin|apply IH; auto].
    + intros k ci Hk. destruct (Hm k ci Hk) as (A & B & C). split; [exact A|]. split; [exact B|].
      eapply Forall_impl; [|exact C]. intros i (sk & v & E & K & T). exists sk, (snd (f (Some sk, v))).
      rewrite nth_error_map, E. cbn [option_map]. destruct (Hf (Some sk, v)) as (F1 & F2 & _). cbn [fst snd] in *.
      rewrite F2. split; [|auto]. f_equal. rewrite (surjective_pairing (f (Some sk, v))) at 1. rewrite F1. reflexivity.
    + unfold tk_ok in *. rewrite Forall_forall in *. intros x Hx. apply in_map_iff in Hx as (kv & <- & Hin).
      destruct (Hf kv) as (F1 & F2 & _). rewrite F1, F2. apply Ht, Hin.
    + destruct Hfl as [Fl1 Fl2]. split; [|exact Fl2]. intros i sk v E. rewrite nth_error_map in E. destruct (nth_error body i) as [kv|] eqn:En; [|discriminate].
      cbn [option_map] in E. inversion E as [E']. destruct (Hf kv) as (F1 & _). rewrite E' in F1. cbn [fst] in F1. destruct kv as [k0 v0]. cbn [fst] in F1. subst k0. eapply Fl1, En.
    + destruct Ho as [O1 O2]. split; [|exact O2]. rewrite O1. unfold firsts. apply firsts_keys. rewrite map_map. apply map_ext. intros kv. unfold kname. destruct (Hf kv) as (-> & _). reflexivity.
Qed.

(** [_replace_at] of a table (or a run of tables) by an array of tables *)
Lemma replace_aot_ok n s body m tks d ci k L nm p t :
  wc (Cont body m true tks d) -> map_get (k_key k) m = Some ci -> wi (IAoT L nm p t) ->
  (forall x, ci = One x -> exists ck v, nth_error body x = Some (ck, v) /\ is_table v = true) ->
  rok (fun c => wc c /\ has (Some (k_key k)) c) (replace_at (S n) s (Cont body m true tks d) (Some ci) (NKKey k) (IAoT L nm p t)).
Proof.
  intros H Hm Hv H1. cbn [replace_at]. inversion H as [? ? ? ? Hb Hmo Ht Hfl Ho]; subst.
  destruct (Hmo _ _ Hm) as (N1 & N2 & N3).
  set (bi := match ci with One x => (body, x) | Many l => (fold_left (fun b x => list_set x (@None skey, INull) b) (tl l) body, hd 0 l) end).
  assert (Hbi : exists sk v, nth_error (fst bi) (snd bi) = Some (Some sk, v) /\ k_key sk = k_key k /\ is_table v = true
                /\ In (snd bi) (idxs ci)
                /\ List.length (fst bi) = List.length body
                /\ Forall (fun kv => wi (snd kv)) (fst bi) /\ tk_ok (fst bi) tks
                /\ firsts (fst bi) = firsts body
                /\ (forall i, i <> snd bi -> In i (idxs ci) -> forall sk' v', nth_error (fst bi) i <> Some (Some sk', v'))
                /\ forall i, ~ In i (idxs ci) -> nth_error (fst bi) i = nth_error body i).
  { destruct ci as [x|l]; cbn [idxs] in *; unfold bi; cbn [fst snd].
    - apply Forall_inv in N3. destruct N3 as (sk & v & E & K & T). destruct (H1 x eq_refl) as (ck & v' & E' & T').
      rewrite E in E'. inversion E'; subst. exists sk, v'. repeat split; auto; [left; reflexivity|]. intros i Hi [<-|[]]. congruence.
    - destruct l as [|x l]; [inversion N1|]. cbn [tl hd]. inversion N2 as [|? ? Nx Nl]; subst.
      inversion N3 as [|? ? Kx Kl]; subst. destruct Kx as (sk & v & E & K & T). exists sk, v.
      rewrite nth_null_fold. assert (X : existsb (Nat.eqb x) l = false).
      { destruct (existsb (Nat.eqb x) l) eqn:X; [|reflexivity]. apply existsb_exists in X as (y & Y1 & Y2).
        apply Nat.eqb_eq in Y2. subst. contradiction. }
      rewrite X. repeat split; auto.
      + left; reflexivity.
      + clear. revert body. induction l as [|y l IH]; intros body; cbn [fold_left]; [reflexivity|]. rewrite IH. apply length_list_set.
      + apply Forall_null_fold; [exact Hb|]. apply wf_leaf. reflexivity.
      + apply Forall_null_fold; [exact Ht|]. cbn. congruence.
      + destruct Ho as [_ O2]. pose proof (O2 _ _ Hm) as Sd. cbn [idxs] in Sd. inversion Sd; subst. eapply firsts_drops; [exact E|assumption|exact Nl|]. eapply Forall_impl; [|exact Kl]. intros j (sj & vj & J1 & J2 & _). exists sj, vj. split; [exact J1|congruence].
      + intros i Hi [<-|Hin] sk' v'; [congruence|]. rewrite nth_null_fold. assert (Y : existsb (Nat.eqb i) l = true) by (apply existsb_exists; exists i; split; [exact Hin|apply Nat.eqb_refl]).
        rewrite Y. destruct (_ <? _); discriminate.
      + intros i Hi. rewrite nth_null_fold. destruct (existsb (Nat.eqb i) l) eqn:Y; [|reflexivity].
        apply existsb_exists in Y as (y & Y1 & Y2). apply Nat.eqb_eq in Y2. subst. exfalso. apply Hi. right. exact Y1. }
  clearbody bi. destruct bi as [body' ix]. cbn [fst snd] in Hbi.
  destruct Hbi as (sk & v & E & K & T & Hin & Hlen & Hb' & Ht' & Hord & Hgone & Hout). rewrite E. cbn [is_table_or_aot is_table is_aot orb].
  unfold is_table_or_aot at 1. rewrite T. cbn [orb xorb rbind copy_trivia c_body].
  set (lastix := match last_nonnull _ 0 None with Some (i, _) => i | None => 0 end). clearbody lastix.
  rewrite nth_list_set, Nat.eqb_refl.
  assert (Hlt : (ix <? List.length body') = true) by (apply Nat.ltb_lt, nth_error_Some; congruence). rewrite Hlt.
  cbn [inval_item rok]. split.
  - constructor.
    + apply Forall_list_set; [apply Forall_list_set; [exact Hb'|]|]; cbn [snd]; [exact Hv|].
      exact (proj1 inval_ok _ Hv).
    + intros k2 ci2. rewrite map_get_set. destruct (str_eqb k2 (k_key k)) eqn:E2.
      * intros X; inversion X; subst. apply str_eqb_eq in E2; subst k2. cbn [idxs]. split; [exact I|].
        split; [repeat constructor; simpl; tauto|]. constructor; [|constructor].
        eexists k, _. rewrite !nth_list_set, Nat.eqb_refl, length_list_set, Hlt. repeat split; discriminate.
      * apply str_eqb_neq in E2. rewrite map_get_del_ne by congruence. intros X.
        destruct (Hmo _ _ X) as (A1 & A2 & A3). split; [exact A1|]. split; [exact A2|].
        rewrite Forall_forall in *. intros i Hi. destruct (A3 i Hi) as (sk2 & v2 & F1 & F2 & F3). exists sk2, v2.
        assert (Hni : ~ In i (idxs ci)).
        { intros Hc. apply N3 in Hc. destruct Hc as (sk3 & v3 & G1 & G2 & _). rewrite F1 in G1. inversion G1; subst. congruence. }
        rewrite !nth_list_set. destruct (Nat.eqb_spec i ix) as [->|]; [contradiction|]. rewrite Hout by exact Hni. auto.
    + unfold tk_ok in *. apply Forall_list_set; [apply Forall_list_set; [exact Ht'|]|]; cbn; discriminate.
    + destruct Hfl as [Fl1 Fl2]. split; [|rewrite K; apply dict_ok_move; [exact Fl2|congruence]].
      intros i sk2 v2. rewrite !nth_list_set, length_list_set. rewrite map_get_set. destruct (Nat.eqb_spec i ix) as [->|Nix].
      * rewrite Hlt. intros X; inversion X; subst. rewrite str_eqb_refl. eexists. split; [reflexivity|left; reflexivity].
      * intros X. assert (Hni : ~ In i (idxs ci) \/ In i (idxs ci)) by (destruct (in_dec Nat.eq_dec i (idxs ci)); auto). destruct Hni as [Hni|Hni].
        -- rewrite Hout in X by exact Hni. destruct (Fl1 _ _ _ X) as (cj & Ej & Ij). destruct (str_eqb (k_key sk2) (k_key k)) eqn:E2.
           ++ apply str_eqb_eq in E2. rewrite E2, Hm in Ej. inversion Ej; subst. contradiction.
           ++ apply str_eqb_neq in E2. rewrite map_get_del_ne by congruence. eauto.
        -- exfalso. exact (Hgone i Nix Hni _ _ X).
    + destruct Ho as [O1 O2]. assert (Ho' : ordered body' (map_set (k_key k) (One ix) (map_del (k_key sk) m)) d).
      { split; [congruence|]. intros k2 ci2. rewrite map_get_set. destruct (str_eqb k2 (k_key k)) eqn:E2; [intros X; inversion X; repeat constructor|].
        apply str_eqb_neq in E2. rewrite map_get_del_ne by congruence. apply O2. }
      eapply ordered_set; [eapply ordered_set; [exact Ho'|exact E|unfold kname; cbn; congruence]|rewrite nth_list_set, Nat.eqb_refl, Hlt; reflexivity|reflexivity].
  - cbn [has c_map set_body]. rewrite map_get_set, str_eqb_refl. eauto.
Qed.

(** The mutually recursive functions. *)
Definition in_range (c : container) (l : list nat) : Prop := Forall (fun i => i < List.length (c_body c)) l.
Definition A_ok n := forall s prox c k it v, (s = true -> strict = true) -> wc c -> wi it -> key_fine k ->
  rok (fun c' => wc c' /\ has (first_key k) c') (append n prox s c k it v).
Definition C_ok n := forall c k, wc c -> rok (fun b => b = true <-> has (Some k) c) (contains n c k).
Definition P_ok n := forall c l, wc c -> in_range c l -> rok wc (proxy n c l).
Definition V_ok n := forall c k, wc c -> rok (fun _ => True) (validate_key n c k).
Definition T_ok n := forall s prox c tm k it, (s = true -> strict = true) -> wc c -> tok tm -> wi it -> key_fine k ->
  rok (fun r => wc (fst r) /\ tok (snd r)) (table_append n prox s c tm k it).

Lemma range_of c k l : wc c -> map_get k (c_map c) = Some (Many l) -> in_range c l.
Proof.
  intros H Hm. inversion H; subst. cbn [c_map c_body] in *. destruct (H1 _ _ Hm) as (_ & _ & A). unfold in_range. cbn [c_body].
  eapply Forall_impl; [|exact A]. intros i Hi. eapply keyed_lt; exact Hi.
Qed.
Lemma set_body_cont b c : set_body b c = Cont b (c_map c) (c_parsed c) (c_tkeys c) (c_dict c).
Proof. destruct c; reflexivity. Qed.
Lemma indent_insert_ok ind c tm : wi (ITable c tm) -> nosp = false -> wi (item_indent_insert ind (ITable c tm)).
Proof.
  intros H Hn. apply wfi_table in H as [H1 H2]. unfold item_indent_insert. cbn [is_wsitem set_trivia]. constructor; [|exact H1].
  destruct H2 as [_ H2]. destruct tm. split; [congruence|exact H2].
Qed.
Lemma item_insert_wf ind i : wi i -> nosp = false ->
  wi (item_indent_insert ind i) /\ is_table (item_indent_insert ind i) = is_table i.
Proof.
  intros H Hn. destruct i as [| | | | | |c m|l n p t]; try (split; [apply wf_leaf|]; reflexivity).
  - split; [|reflexivity]. inversion H; subst; try discriminate; [apply wf_any; [assumption|reflexivity]|apply wf_array; assumption].
  - split; [|reflexivity]. inversion H; subst; try discriminate; [apply wf_any; [assumption|reflexivity]|apply wf_inline; assumption].
  - split; [apply indent_insert_ok; assumption|reflexivity].
  - split; [|reflexivity]. apply wfi_aot in H as (A & B & C & ->). constructor; [exact A|congruence|exact C].
Qed.
Lemma nosp_dec ind m : tok m -> first_spaces (tr_indent (tm_trivia m)) = Some ind -> nosp = false.
Proof. intros [H _] E. destruct nosp; [specialize (H eq_refl); congruence|reflexivity]. Qed.

Lemma step_T n : A_ok n -> P_ok n -> T_ok (S n).
Proof.
  intros HA HP s prox c tm k it Hs Hc Ht Hi Hk. cbn [table_append].
  eapply rok_bind; [apply HA; assumption|]. intros c' [Hc' Hh]. unfold first_key in Hh.
  destruct (option_map _ k) as [ks|]; cbn [has] in Hh.
  - destruct Hh as [ci Hci]. rewrite Hci. destruct ci as [i|l].
    + destruct (first_spaces _) as [ind|] eqn:E; [|cbn; auto].
      pose proof (nosp_dec _ _ Ht E) as Hn.
      destruct (negb (is_own prox)); [cbn; auto|]. destruct s; [cbn; auto|].
      destruct (nth_error (c_body c') i) as [[bk v]|] eqn:En.
      * assert (G : rok (fun r => wc (fst r) /\ tok (snd r)) (Ok (set_body (list_set i (bk, item_indent_insert ind v) (c_body c')) c', tm))).
        { cbn [rok fst snd]. split; [|exact Ht]. rewrite set_body_cont. pose proof (wfc_in _ _ _ Hc' En) as Hw. cbn [snd] in Hw.
          destruct (item_insert_wf ind v Hw Hn) as [G1 G2]. inversion Hc'; subst. eapply wfc_set; eauto. }
        destruct v as [| | |[]| | | |]; try exact G. cbn. exact Hn.
      * exfalso. inversion Hc'; subst. cbn [c_map c_body] in *. destruct (H0 _ _ Hci) as (_ & _ & F). apply Forall_inv, keyed_lt in F.
        apply nth_error_None in En. lia.
    + eapply rok_bind; [apply HP; [exact Hc'|eapply range_of; eauto]|]. intros _ _.
      destruct (first_spaces _) as [ind|] eqn:E; [|cbn; auto]. cbn. eapply nosp_dec; eauto.
  - destruct (first_spaces _) as [ind|] eqn:E; [|cbn; auto].
    pose proof (nosp_dec _ _ Ht E) as Hn.
    destruct (negb (is_own prox)); [cbn; auto|]. destruct s; [cbn; auto|]. cbv zeta.
    destruct (nth_error _ _) as [[bk v]|] eqn:En; [|cbn; auto]. cbn [rok fst snd]. split; [|exact Ht].
    rewrite set_body_cont. pose proof (wfc_in _ _ _ Hc' En) as Hw. cbn [snd] in Hw.
    destruct (item_insert_wf ind v Hw Hn) as [G1 G2]. inversion Hc'; subst. eapply wfc_set; eauto.
Qed.
Lemma step_P n : A_ok n -> V_ok n -> P_ok (S n).
Proof.
  intros HA HV c l Hc Hl. cbn [proxy]. eapply rok_bind.
  - apply (rok_fold wc); [apply wfc_empty|]. intros ic i Hi Hic.
    destruct (nth_error (c_body c) i) as [[k v]|] eqn:E.
    + pose proof (wfc_in _ _ _ Hc E) as Hw. cbn [snd] in Hw. destruct v as [| | | | | |tc tm|]; try exact Hic.
      apply wfi_table in Hw as [Hw _]. apply (rok_fold wc); [exact Hic|]. intros ic' kv Hkv Hic'.
      eapply rok_impl; [|apply HA]; try assumption.
      * intros c' [H _]; exact H.
      * discriminate.
      * apply wfc_body in Hw. rewrite Forall_forall in Hw. apply Hw, Hkv.
      * destruct (fst kv); exact I.
    + exfalso. unfold in_range in Hl. rewrite Forall_forall in Hl. apply Hl in Hi. apply nth_error_None in E. lia.
  - intros ic Hic. eapply rok_bind; [|intros [] _; exact Hic].
    apply (rok_fold (fun _ => True)); [exact I|]. intros b x _ _. apply HV, Hic.
Qed.
Lemma step_V n : P_ok n -> V_ok (S n).
Proof.
  intros HP c k Hc. cbn [validate_key]. destruct (map_get k (c_map c)) as [[]|] eqn:E; try exact I.
  eapply rok_bind; [apply HP; [exact Hc|eapply range_of; eauto]|]. intros; exact I.
Qed.
Lemma step_C n : P_ok n -> C_ok (S n).
Proof.
  intros HP c k Hc. cbn [contains has]. destruct (map_get k (c_map c)) as [[i|l]|] eqn:E.
  - cbn. split; eauto.
  - pose proof (HP c l Hc (range_of _ _ _ Hc E)) as H. destruct (proxy n c l) as [c'|e]; cbn [rok] in *; [split; eauto|].
    destruct e; try exact H; destruct H.
  - cbn. split; [discriminate|]. intros [ci H]. discriminate.
Qed.

Lemma step_A n : A_ok n -> C_ok n -> V_ok n -> T_ok n -> A_ok (S n).
Proof.
  intros HA HC HV HT s prox c k it v Hs Hc Hi Hk. cbn [append].
  assert (Main : forall ok, (match k with Some (KSingle _) => ok = kstr k | None => ok = None | _ => False end) ->
    first_key k = option_map k_key ok).
  { intros ok. destruct k as [[]|]; cbn; intros; subst; auto; contradiction. }
  assert (G : forall ok, rok (fun c' => wc c' /\ has (option_map k_key ok) c')
    (let it0 := match ok with Some k' => set_name (k_key k') it | None => it end in
     let it1 := pre_append c ok it0 in
     match ok with
          | None => append_end c None it1
          | Some k' =>
              let* present := contains n c (k_key k') in
              if negb present then append_end c ok it1
              else
                let 'Cont body m p tks d := c in
                match map_get (k_key k') m with
                | None => Err KeyErrorE
                | Some ci =>
                    let pos := match ci with One x => x | Many l => last l 0%nat end in
                    match nth_error body pos with
                    | None => Err IndexErrorE
                    | Some (ck, cur) =>
                        let cur_dotted := match ck with Some x => k_dotted x | None => false end in
                        match it1 with
                        | ITable ic im =>
                            if negb (is_table_or_aot cur) then Err (KeyAlreadyPresentE (k_key k'))
                            else if tm_aot im then
                              if is_shared prox then Err UnmodelledE
                              else if s then Err (LossyE 9)
                              else
                              match cur with
                              | IAoT l nm ap t =>
                                  Ok (Cont (list_set pos (ck, IAoT (aot_append l ap t (ic, im)) nm ap t) body) m p tks d)
                              | ITable cc cmeta =>
                                  replace_at n s c (Some ci) (NKKey k')
                                             (aot_make [(cc, cmeta); (ic, im)] None p)
                              | _ => Err (KeyAlreadyPresentE (k_key k'))
                              end
                            else if is_aot cur then Err (KeyAlreadyPresentE (k_key k'))
                            else if item_is_super cur then
                              if table_is_super ic im then
                                let mk := k_dotted k' || cur_dotted in
                                let differs := match tks with
                                               | [] => Err IndexErrorE
                                               | _ => Ok (negb (str_eqb (last tks []) (match ck with Some x => k_key x | None => [] end)))
                                               end in
                                let* cond := (if mk then Ok true else differs) in
                                if cond then
                                  let ix := if k_dotted k' && negb p then last_index_before_table body
                                            else List.length body in
                                  let* c' := (if Nat.ltb ix (List.length body) then insert_at c ix k' it1
                                              else raw_append c ok it1) in
                                  if v then
                                    let* _ := validate_key n c' (k_key k') in Ok c'
                                  else Ok c'
                                else
                                  if s && negb (is_last pos body) then Err (LossyE 7)
                                  else if s && negb (str_eqb (match ck with Some x => k_orig x | None => [] end) (k_orig k')) then Err (LossyE 5)
                                  else
                                  match cur with
                                  | ITable cc cmeta =>
                                      let* r := fold_res (fun acc (kv : option skey * item) =>
                                                  table_append n (if is_own prox then Own else Copied) s (fst acc) (snd acc)
                                                               (option_map KSingle (fst kv)) (snd kv))
                                                  (c_body ic) (cc, cmeta) in
                                      Ok (Cont (list_set pos (ck, ITable (fst r) (snd r)) body) m p tks d)
                                  | _ => Err TypeErrorE
                                  end
                              else if cur_dotted then Err TOMLKitErrorE
                              else append_end c ok it1
                            else if negb (table_is_super ic im) then Err (KeyAlreadyPresentE (k_key k'))
                            else append_end c ok it1
                        | IAoT il _ _ _ =>
                            match cur with
                            | IAoT l nm ap t =>
                                if is_shared prox then Err UnmodelledE
                                else if s && negb (is_last pos body) then Err (LossyE 6)
                                else if s && negb (str_eqb (match ck with Some x => k_orig x | None => [] end) (k_orig k')) then Err (LossyE 5)
                                else Ok (Cont (list_set pos (ck, IAoT (fold_left (fun l x => aot_append l ap t x) il l) nm ap t) body) m p tks d)
                            | _ => Err (KeyAlreadyPresentE (k_key k'))
                            end
                        | _ => Err (KeyAlreadyPresentE (k_key k'))
                        end
                    end
                end
          end)).
  { clear Main Hk k. intros ok. cbv zeta.
    assert (Hi' : wi (match ok with Some k' => set_name (k_key k') it | None => it end)) by (destruct ok; [apply set_name_ok|]; exact Hi).
    generalize dependent (match ok with Some k' => set_name (k_key k') it | None => it end). clear it Hi. intros it Hi.
    inversion Hc as [body m tks d Hb Hm Ht Hf Ho]; subst c. rewrite pre_append_parsed.
    destruct ok as [k|]; [|rewrite append_end_parsed; apply raw_append_ok; auto].
    eapply rok_bind; [apply HC; exact Hc|]. intros present Hp. destruct present; cbn [negb].
    2:{ rewrite append_end_parsed. apply raw_append_ok; auto. left. destruct (map_get (k_key k) m) eqn:E; [|reflexivity].
        destruct Hp as [_ Hp]. cbn [has c_map] in Hp. discriminate Hp. eauto. }
    destruct Hp as [Hp _]. specialize (Hp eq_refl). cbn [has c_map] in Hp. destruct Hp as [ci Hci]. rewrite Hci.
    destruct (Hm _ _ Hci) as (N1 & N2 & N3).
    set (pos := match ci with One x => x | Many l => last l 0 end).
    assert (Hpos : keyed (match ci with Many _ => true | One _ => false end) body (k_key k) pos).
    { rewrite Forall_forall in N3. apply N3. destruct ci; cbn [idxs] in *; [left; reflexivity|apply last_in; exact (roomy_ne _ N1)]. }
    destruct Hpos as (sk & cur & E & K & T). rewrite E.
    assert (Hcur : wi cur) by (pose proof (wfc_in _ pos (Some sk, cur) Hc E) as X; exact X).
    cbn [option_map]. assert (HasC : forall b' tks' d', has (Some (k_key k)) (Cont b' m true tks' d')) by (intros; cbn; eauto).
    assert (RA : is_table it = true -> rok (fun c' => wc c' /\ has (Some (k_key k)) c') (append_end (Cont body m true tks d) (Some k) it))
      by (intros; rewrite append_end_parsed; apply raw_append_ok; auto).
    destruct it as [| | | | | |ic im|il iln ilp ilt]; try exact I.
    - apply wfi_table in Hi as [Hic Him].
      destruct (is_table_or_aot cur) eqn:Eta; cbn [negb]; [|exact I].
      destruct (tm_aot im) eqn:Eaot.
      { assert (Na : noaot = false) by (destruct Him as [_ Him]; destruct noaot; [specialize (Him eq_refl); congruence|reflexivity]).
        destruct (is_shared prox); [right; exact Na|]. destruct s; [exact (Hs eq_refl)|].
        destruct cur as [| | | | | |cc cm|l nm ap t]; try exact I.
        - apply wfi_table in Hcur as [W1 W2]. destruct n as [|n']; [exact I|]. apply replace_aot_ok; auto.
          + apply aot_make_ok; [exact Na|]. constructor; [split; assumption|]. constructor; [split; assumption|constructor].
          + intros x ->. exists (Some sk), (ITable cc cm). auto.
        - apply wfi_aot in Hcur as (W1 & W2 & W3 & ->). cbn [rok]. split; [|apply HasC].
          eapply wfc_set; [exact Hc|exact E|reflexivity|]. constructor; auto. apply aot_insert_ok; auto; [split; auto|apply no_spaces, W2]. }
      destruct (is_aot cur) eqn:Eca; [exact I|].
      destruct cur as [| | | | | |cc cm|l nm ap t]; try discriminate. clear Eta Eca.
      apply wfi_table in Hcur as [W1 W2].
      destruct (item_is_super (ITable cc cm)).
      2:{ destruct (negb (table_is_super ic im)); [exact I|]. apply RA. reflexivity. }
      destruct (table_is_super ic im).
      2:{ destruct (k_dotted sk); [exact I|]. apply RA. reflexivity. }
      eapply rok_bind with (P := fun _ => True).
      { destruct (k_dotted k || k_dotted sk); [exact I|]. destruct tks; [|exact I]. exfalso.
        unfold tk_ok in Ht. rewrite Forall_forall in Ht. apply nth_error_In in E. specialize (Ht _ E). cbn in Ht.
        apply Ht; congruence. }
      intros cond _. destruct cond.
      + cbn [negb]. rewrite andb_false_r, Nat.ltb_irrefl.
        eapply rok_bind; [apply raw_append_ok; auto; constructor; assumption|]. intros c' [Hc' Hh]. destruct v; [|split; assumption].
        eapply rok_bind; [apply HV; exact Hc'|]. intros; split; assumption.
      + destruct (s && negb (is_last _ _)) eqn:Es1; [apply andb_true_iff in Es1 as [Es1 _]; exact (Hs Es1)|].
        destruct (s && negb (str_eqb _ _)) eqn:Es2; [apply andb_true_iff in Es2 as [Es2 _]; exact (Hs Es2)|].
        eapply rok_bind.
        * apply (rok_fold (fun r => wc (fst r) /\ tok (snd r))); [split; assumption|].
          intros [c1 m1] kv Hkv [X1 X2]. cbn [fst snd] in *. apply HT; auto.
          -- apply wfc_body in Hic. rewrite Forall_forall in Hic. apply Hic, Hkv.
          -- destruct (fst kv); exact I.
        * intros r [X1 X2]. cbn [rok]. split; [|apply HasC]. eapply wfc_set; [exact Hc|exact E|reflexivity|]. constructor; assumption.
    - destruct cur as [| | | | | |cc cm|l nm ap t]; try exact I.
      apply wfi_aot in Hcur as (W1 & W2 & W3 & ->). destruct (is_shared prox); [right; exact W1|].
      destruct (s && negb (is_last _ _)) eqn:Es1; [apply andb_true_iff in Es1 as [Es1 _]; exact (Hs Es1)|].
      destruct (s && negb (str_eqb _ _)) eqn:Es2; [apply andb_true_iff in Es2 as [Es2 _]; exact (Hs Es2)|].
      cbn [rok]. split; [|apply HasC]. eapply wfc_set; [exact Hc|exact E|reflexivity|]. constructor; auto.
      apply aot_appends_ok; auto; [apply wfi_aot in Hi; apply Hi|apply no_spaces, W2]. }
  destruct k as [[k|ks sep orig]|].
  - apply (G (Some k)).
  - cbn [key_fine] in Hk. destruct ks as [|name [|x rest]]; cbn in Hk; try lia.
    destruct (is_table_or_aot it); [exact I|].
    eapply rok_impl; [|apply HA; auto].
    + intros c' [H1 H2]. split; [exact H1|]. exact H2.
    + constructor; [apply super_meta_ok|]. apply dotted_table_ok. exact Hi.
    + exact I.
  - apply (G None).
Qed.
Lemma app_all n : A_ok n /\ C_ok n /\ P_ok n /\ V_ok n /\ T_ok n.
Proof.
  induction n as [|n (HA & HC & HP & HV & HT)].
  - repeat split; repeat intro; exact I.
  - split; [apply step_A; assumption|]. split; [apply step_C; assumption|]. split; [apply step_P; assumption|].
    split; [apply step_V; assumption|apply step_T; assumption].
Qed.

Lemma cappend_ok c k it : wc c -> wi it -> key_fine k -> rok wc (cappend strict c k it).
Proof. intros. unfold cappend. eapply rok_impl; [|apply (proj1 (app_all _))]; auto. intros c' [X _]; exact X. Qed.
Lemma table_raw_append_ok c k it : wc c -> wi it -> key_fine k -> rok wc (table_raw_append strict c k it).
Proof.
  intros Hc Hi Hk. unfold table_raw_append. eapply rok_bind; [apply (proj1 (app_all _)); auto|]. intros c' [H1 H2].
  unfold first_key in H2. destruct (option_map _ k); [|exact H1]. destruct H2 as [ci Hci]. rewrite Hci. destruct ci; [exact H1|].
  eapply rok_bind; [apply (proj1 (proj2 (proj2 (app_all _)))); [exact H1|eapply range_of; eauto]|]. intros; exact H1.
Qed.
Lemma validate_all_ok c : wc c -> rok (fun _ => True) (validate_all c).
Proof. intros H. apply (rok_fold (fun _ => True)); [exact I|]. intros. apply (proj1 (proj2 (proj2 (proj2 (app_all _))))). exact H. Qed.
End Wf.
