(** ContOps: adding, assigning and deleting entries of a container. *)
From Verif Require Import Base Source Utils Items Container Lemmas Consist OMap.
From Coq Require Import ZifyBool ZifyNat ZifyN.
Open Scope nat_scope.

(** An item without its line decoration (indent, comment, line end). *)
Definition strip (i : item) : item := set_trivia default_trivia i.
Definition plain (i : item) : Prop := match i with IVal _ _ | IArray _ _ _ | IInline _ _ _ => True | _ => False end.
(** What iteration and lookup show: the keys in order, each with its item ([None]
    for an out-of-order table, which has no single item). *)
Definition view (c : container) : omap (option item) := map (fun k => (k, option_map strip (get_item c k))) (c_dict c).

Lemma plain_not_table i : plain i -> is_table_or_aot i = false.
Proof. destruct i; cbn; intros H; try reflexivity; destruct H. Qed.
Lemma plain_not_null i : plain i -> is_null i = false.
Proof. destruct i; cbn; intros H; try reflexivity; destruct H. Qed.
Lemma plain_name k i : plain i -> set_name k i = i.
Proof. destruct i; cbn; intros H; try reflexivity; destruct H. Qed.
Lemma plain_pre c k i : plain i -> pre_append c k i = i.
Proof. destruct c, i; cbn; intros H; try reflexivity; destruct H. Qed.
Lemma plain_inval i : plain i -> inval_item i = i.
Proof. destruct i; cbn; intros H; try reflexivity; destruct H. Qed.
Lemma strip_set t i : strip (set_trivia t i) = strip i.
Proof. destruct i; try reflexivity. Qed.
Lemma strip_strip i : strip (strip i) = strip i.
Proof. apply strip_set. Qed.
Lemma strip_copy v w : plain v -> strip (copy_trivia v w) = strip v.
Proof. destruct v; cbn; intros H; try reflexivity; destruct H. Qed.
Lemma strip_table i : is_table (strip i) = is_table i.
Proof. destruct i; reflexivity. Qed.
Lemma plain_strip i : plain (strip i) <-> plain i.
Proof. destruct i; cbn; tauto. Qed.
Lemma plain_copy v w : plain v -> plain (copy_trivia v w).
Proof. destruct v; cbn; tauto. Qed.

(** * Bodies that differ in decoration only *)
Definition same_entry (x y : option skey * item) : Prop := fst x = fst y /\ strip (snd x) = strip (snd y).
Definition sim (b b' : list (option skey * item)) : Prop := Forall2 same_entry b b'.
Lemma same_entry_refl x : same_entry x x.
Proof. split; reflexivity. Qed.
Lemma sim_refl b : sim b b.
Proof. induction b; constructor; auto. apply same_entry_refl. Qed.
Lemma sim_nth b b' i x : sim b b' -> nth_error b i = Some x -> exists y, nth_error b' i = Some y /\ same_entry x y.
Proof.
  intros H. revert i. induction H as [|a a' b b' Ha Hb IH]; intros [|i] E; cbn in E |- *; try discriminate; [inversion E; subst; eauto|auto].
Qed.
Lemma sim_sym b b' : sim b b' -> sim b' b.
Proof. induction 1 as [|x y b b' [A B] H IH]; constructor; auto. split; congruence. Qed.
Lemma sim_none b b' i : sim b b' -> nth_error b i = None -> nth_error b' i = None.
Proof.
  intros H E. destruct (nth_error b' i) eqn:E'; [|reflexivity]. apply sim_sym in H. destruct (sim_nth _ _ _ _ H E') as (y & Y & _). congruence.
Qed.
Lemma sim_set b i pk v v' : nth_error b i = Some (pk, v) -> strip v' = strip v -> sim b (list_set i (pk, v') b).
Proof.
  revert i. induction b as [|x b IH]; intros [|i] E Hv; cbn in E |- *; try discriminate.
  - inversion E; subst. constructor; [split; [reflexivity|cbn; congruence]|apply sim_refl].
  - constructor; [apply same_entry_refl|exact (IH i E Hv)].
Qed.
Lemma sim_length b b' : sim b b' -> List.length b = List.length b'.
Proof. induction 1; cbn; auto. Qed.
Lemma sim_map_ok b b' m : sim b b' -> map_ok b m -> map_ok b' m.
Proof.
  intros S H k ci Hk. destruct (H k ci Hk) as (A & B & C). split; [exact A|]. split; [exact B|]. eapply Forall_impl; [|exact C].
  intros i (sk & v & E & K & T). destruct (sim_nth _ _ _ _ S E) as ([sk' v'] & E' & Q1 & Q2). cbn in Q1, Q2. subst sk'. exists sk, v'. repeat split; auto.
  intros X. rewrite <- strip_table, <- Q2, strip_table. auto.
Qed.
Lemma sim_full b b' m d : sim b b' -> full b m d -> full b' m d.
Proof.
  intros S [A B]. split; [|exact B]. intros i sk v E. apply sim_sym in S. destruct (sim_nth _ _ _ _ S E) as ([sk' v'] & E' & Q1 & _). cbn in Q1. subst sk'. eauto.
Qed.
Lemma sim_get b b' m p tks d k : sim b b' -> option_map strip (get_item (Cont b m p tks d) k) = option_map strip (get_item (Cont b' m p tks d) k).
Proof.
  intros S. unfold get_item. cbn [c_map c_body]. destruct (map_get k m) as [[i|]|]; try reflexivity.
  destruct (nth_error b i) as [[a v]|] eqn:E.
  - destruct (sim_nth _ _ _ _ S E) as ([a' v'] & E' & _ & Q). rewrite E'. cbn in *. congruence.
  - rewrite (sim_none _ _ _ S E). reflexivity.
Qed.
Lemma add_nl_strip v : strip (add_nl_trail v) = strip v.
Proof. apply strip_set. Qed.

(** * Insertion *)
Lemma bump_inj idx i j : bump idx i = bump idx j -> i = j.
Proof. unfold bump. destruct (Nat.leb_spec idx i), (Nat.leb_spec idx j); lia. Qed.
Lemma nth_insert_new {A} idx (x : A) l : idx <= List.length l -> nth_error (list_insert idx x l) idx = Some x.
Proof.
  intros H. unfold list_insert. rewrite nth_error_app2; rewrite firstn_length_le by exact H; [|lia]. rewrite Nat.sub_diag. reflexivity.
Qed.
Lemma nth_insert_old {A} idx (x : A) l i : idx <= List.length l -> nth_error (list_insert idx x l) (bump idx i) = nth_error l i.
Proof.
  intros H. unfold list_insert, bump. destruct (Nat.leb_spec idx i) as [Hi|Hi].
  - rewrite nth_error_app2; rewrite firstn_length_le by exact H; [|lia]. replace (S i - idx) with (S (i - idx)) by lia. cbn [nth_error].
    rewrite <- (firstn_skipn idx l) at 2. rewrite nth_error_app2; rewrite firstn_length_le by exact H; [reflexivity|lia].
  - rewrite nth_error_app1 by (rewrite firstn_length_le by exact H; lia). rewrite <- (firstn_skipn idx l) at 2. rewrite nth_error_app1; [reflexivity|]. rewrite firstn_length_le by exact H. lia.
Qed.
Lemma nth_insert_inv {A} idx (x y : A) l j : idx <= List.length l -> nth_error (list_insert idx x l) j = Some y ->
  (j = idx /\ y = x) \/ exists i, j = bump idx i /\ nth_error l i = Some y.
Proof.
  intros H E. destruct (Nat.eq_dec j idx) as [->|N]; [left; rewrite nth_insert_new in E by exact H; inversion E; auto|right].
  exists (if Nat.ltb j idx then j else j - 1). assert (B : j = bump idx (if j <? idx then j else j - 1)) by (unfold bump; destruct (Nat.ltb_spec j idx); [destruct (Nat.leb_spec idx j)|destruct (Nat.leb_spec idx (j - 1))]; lia).
  split; [exact B|]. rewrite B in E. rewrite nth_insert_old in E by exact H. exact E.
Qed.
Lemma map_get_bump idx k m : map_get k (map (fun kv : str * cidx => (fst kv, bump_idx idx (snd kv))) m) = option_map (bump_idx idx) (map_get k m).
Proof. induction m as [|[a b] m IH]; cbn [map map_get fst snd]; [reflexivity|]. rewrite IH. destruct (str_eqb k a); reflexivity. Qed.
Lemma idxs_bump idx ci : idxs (bump_idx idx ci) = map (bump idx) (idxs ci).
Proof. destruct ci; reflexivity. Qed.
Lemma map_ok_insert idx k it body m : idx <= List.length body -> map_ok body m -> map_get (k_key k) m = None ->
  map_ok (list_insert idx (Some k, it) body) (map_set (k_key k) (One idx) (map (fun kv : str * cidx => (fst kv, bump_idx idx (snd kv))) m)).
Proof.
  intros Hi H N k2 ci. rewrite map_get_set. destruct (str_eqb k2 (k_key k)) eqn:E.
  - intros X; inversion X; subst. apply str_eqb_eq in E. subst k2. cbn [idxs]. split; [exact I|]. split; [repeat constructor; simpl; tauto|].
    constructor; [|constructor]. exists k, it. rewrite nth_insert_new by exact Hi. repeat split; auto; discriminate.
  - rewrite map_get_bump. destruct (map_get k2 m) as [cj|] eqn:Ej; [|discriminate]. cbn [option_map]. intros X; inversion X; subst. destruct (H _ _ Ej) as (A & B & C).
    rewrite idxs_bump. split; [destruct cj; cbn [bump_idx roomy] in *; rewrite ?map_length; exact A|]. split.
    + clear -B. induction B as [|x l Hx Hl IH]; [constructor|]. cbn [map]. constructor; [|exact IH]. rewrite in_map_iff. intros (y & Y & Hy). apply bump_inj in Y. subst. contradiction.
    + rewrite Forall_forall in *. intros j Hj. apply in_map_iff in Hj as (i & <- & Hin). destruct (C _ Hin) as (sk & v & E1 & K & T). exists sk, v. rewrite nth_insert_old by exact Hi.
      split; [exact E1|]. split; [exact K|]. destruct cj; exact T.
Qed.
Lemma full_insert idx k it body m d : idx <= List.length body -> full body m d -> map_get (k_key k) m = None ->
  full (list_insert idx (Some k, it) body) (map_set (k_key k) (One idx) (map (fun kv : str * cidx => (fst kv, bump_idx idx (snd kv))) m)) (dict_set (k_key k) d).
Proof.
  intros Hi [A B] N. split.
  - intros j sk v E. rewrite map_get_set, map_get_bump. apply nth_insert_inv in E as [(-> & E)|(i & -> & E)]; [| |exact Hi].
    + inversion E; subst. rewrite str_eqb_refl. exists (One idx). split; [reflexivity|left; reflexivity].
    + destruct (A _ _ _ E) as (ci & E1 & I1). destruct (str_eqb (k_key sk) (k_key k)) eqn:Ek; [apply str_eqb_eq in Ek; congruence|].
      rewrite E1. exists (bump_idx idx ci). split; [reflexivity|]. rewrite idxs_bump. apply in_map, I1.
  - apply dict_ok_set. destruct B as (B1 & B2 & B3). split; [rewrite map_map; exact B1|]. split; [exact B2|]. intros x. rewrite B3, map_get_bump. destruct (map_get x m); cbn; split; congruence.
Qed.

(** * What [append] does to a container that does not have the key *)
(** [add_shape c k it c']: [it] is put between two parts of the body; the entry
    before it may get a line end. *)
Record add_shape (c : container) (k : skey) (it : item) (c' : container) (b1 b1' b2 : list (option skey * item)) : Prop := {
  as_body : c_body c = b1 ++ b2;
  as_body' : c_body c' = b1' ++ [(Some k, it)] ++ b2;
  as_sim : sim b1 b1';
  as_dict : c_dict c' = c_dict c ++ [k_key k];
  as_parsed : c_parsed c' = c_parsed c;
  as_get_new : get_item c' (k_key k) = Some it;
  as_get_old : forall x, x <> k_key k -> option_map strip (get_item c' x) = option_map strip (get_item c x);
  as_many : forall x, x <> k_key k -> option_map many (map_get x (c_map c')) = option_map many (map_get x (c_map c));
  as_ok : consistent c' }.

Lemma dict_set_new k d : ~ In k d -> dict_set k d = d ++ [k].
Proof. intros H. unfold dict_set. destruct (existsb (str_eqb k) d) eqn:E; [apply existsb_in in E; contradiction|reflexivity]. Qed.
Lemma consistent_dict c k : consistent c -> (In k (c_dict c) <-> map_get k (c_map c) <> None).
Proof. intros (_ & _ & _ & _ & H). apply H. Qed.
Lemma map_ok_one body m k it : map_ok body m -> map_get (k_key k) m = None -> map_ok (body ++ [(Some k, it)]) (map_set (k_key k) (One (List.length body)) m).
Proof.
  intros H N k2 ci. rewrite map_get_set. destruct (str_eqb k2 (k_key k)) eqn:E.
  - intros X; inversion X; subst. apply str_eqb_eq in E. subst k2. cbn [idxs]. split; [exact I|]. split; [repeat constructor; simpl; tauto|].
    constructor; [|constructor]. exists k, it. rewrite nth_error_app2, Nat.sub_diag by lia. repeat split; auto; discriminate.
  - intros X. destruct (H _ _ X) as (A & B & C). split; [exact A|]. split; [exact B|]. eapply Forall_impl; [|exact C]. intros; apply keyed_app; assumption.
Qed.
Lemma raw_append_new body body' m p tks d k it : consistent (Cont body m p tks d) -> sim body body' -> map_get (k_key k) m = None ->
  exists c', raw_append (Cont body' m p tks d) (Some k) it = Ok c' /\ add_shape (Cont body m p tks d) k it c' body body' [].
Proof.
  intros Hc S N. unfold raw_append. rewrite N. cbn [rbind]. eexists. split; [reflexivity|].
  pose proof (consistent_dict _ (k_key k) Hc) as Hd. cbn [c_dict c_map] in Hd. destruct Hc as [M F]. cbn [c_body c_map c_dict] in M, F.
  pose proof (sim_map_ok _ _ _ S M) as M'. pose proof (sim_full _ _ _ _ S F) as F'.
  split; cbn [c_body c_dict c_map c_parsed]; auto.
  - rewrite app_nil_r. reflexivity.
  - apply dict_set_new. rewrite Hd. congruence.
  - unfold get_item. cbn [c_map c_body]. rewrite map_get_set, str_eqb_refl, nth_error_app2, Nat.sub_diag by lia. reflexivity.
  - intros x Hx. rewrite (sim_get body body' m p tks d x S). unfold get_item. cbn [c_map c_body]. rewrite map_get_set. apply str_eqb_neq in Hx. rewrite Hx.
    destruct (map_get x m) as [[i|]|] eqn:E; try reflexivity. destruct (M' _ _ E) as (_ & _ & K). apply Forall_inv, keyed_lt in K. cbn [idxs] in K.
    rewrite nth_error_app1 by exact K. reflexivity.
  - intros x Hx. rewrite map_get_set. apply str_eqb_neq in Hx. rewrite Hx. reflexivity.
  - split; cbn [c_body c_map c_dict]; [apply map_ok_one|apply full_one]; assumption.
Qed.
Lemma list_set_firstn {A} i (x : A) l idx : i < idx -> firstn idx (list_set i x l) = list_set i x (firstn idx l).
Proof. revert i idx. induction l as [|y l IH]; intros [|i] [|idx] H; cbn; try reflexivity; try lia. rewrite IH by lia. reflexivity. Qed.
Lemma list_set_skipn {A} i (x : A) l idx : i < idx -> skipn idx (list_set i x l) = skipn idx l.
Proof. revert i idx. induction l as [|y l IH]; intros [|i] [|idx] H; cbn; try reflexivity; try lia. apply IH. lia. Qed.
Lemma nth_firstn {A} i idx (l : list A) : i < idx -> nth_error (firstn idx l) i = nth_error l i.
Proof. revert i idx. induction l as [|y l IH]; intros [|i] [|idx] H; cbn; try reflexivity; try lia. apply IH. lia. Qed.
(** The entry before the insertion point, with a line end. *)
Definition ends_line (it prev : item) : bool := is_wsitem prev || ends_with_whitespace prev || is_table_or_aot it || inb chLF (tr_trail (item_trivia prev)).
Definition close_line (it : item) (b : list (option skey * item)) : list (option skey * item) :=
  match List.length b with
  | O => b
  | S i => match nth_error b i with
           | Some (pk, prev) => if ends_line it prev then b else list_set i (pk, add_nl_trail prev) b
           | None => b
           end
  end.
Lemma close_sim it b : sim b (close_line it b).
Proof.
  unfold close_line. destruct (List.length b) as [|i]; [apply sim_refl|]. destruct (nth_error b i) as [[pk prev]|] eqn:E; [|apply sim_refl].
  destruct (ends_line it prev); [apply sim_refl|]. eapply sim_set; [exact E|apply add_nl_strip].
Qed.
Lemma insert_at_new c idx k it : consistent c -> idx < List.length (c_body c) -> map_get (k_key k) (c_map c) = None ->
  exists c', insert_at c idx k it = Ok c' /\ add_shape c k it c' (firstn idx (c_body c)) (close_line it (firstn idx (c_body c))) (skipn idx (c_body c)).
Proof.
  intros Hc Hi N. destruct c as [body m p tks d]. cbn [c_body c_map] in *. unfold insert_at.
  replace ((List.length body - 1 <? idx) || (List.length body =? 0)) with false by (symmetry; apply orb_false_iff; split; [apply Nat.ltb_ge|apply Nat.eqb_neq]; lia).
  set (body1 := match idx with O => body | S i => _ end).
  assert (H1 : firstn idx body1 = close_line it (firstn idx body) /\ skipn idx body1 = skipn idx body /\ sim body body1).
  { unfold body1, close_line. rewrite firstn_length_le by lia. destruct idx as [|i]; [repeat split; auto using sim_refl|]. rewrite nth_firstn by lia.
    destruct (nth_error body i) as [[pk prev]|] eqn:E; [|repeat split; auto using sim_refl]. fold (ends_line it prev). destruct (ends_line it prev); [repeat split; auto using sim_refl|].
    split; [apply list_set_firstn; lia|]. split; [apply list_set_skipn; lia|]. eapply sim_set; [exact E|apply add_nl_strip]. }
  clearbody body1. destruct H1 as (Q1 & Q2 & S). rewrite map_get_bump, N. cbn [option_map]. eexists. split; [reflexivity|].
  pose proof (consistent_dict _ (k_key k) Hc) as Hd. cbn [c_dict c_map] in Hd. destruct Hc as [M F]. cbn [c_body c_map c_dict] in M, F.
  pose proof (sim_map_ok _ _ _ S M) as M'. pose proof (sim_full _ _ _ _ S F) as F'. assert (Hi' : idx <= List.length body1) by (rewrite <- (sim_length _ _ S); lia).
  split; cbn [c_body c_dict c_map c_parsed]; auto.
  - symmetry. apply firstn_skipn.
  - unfold list_insert. rewrite Q1, Q2. reflexivity.
  - apply close_sim.
  - apply dict_set_new. rewrite Hd. congruence.
  - unfold get_item. cbn [c_map c_body]. rewrite map_get_set, str_eqb_refl, nth_insert_new by exact Hi'. reflexivity.
  - intros x Hx. rewrite (sim_get body body1 m p tks d x S). unfold get_item. cbn [c_map c_body]. rewrite map_get_set, map_get_bump. apply str_eqb_neq in Hx. rewrite Hx.
    destruct (map_get x m) as [[i|]|]; cbn [option_map bump_idx]; try reflexivity. rewrite nth_insert_old by exact Hi'. reflexivity.
  - intros x Hx. rewrite map_get_set, map_get_bump. apply str_eqb_neq in Hx. rewrite Hx. destruct (map_get x m) as [[]|]; reflexivity.
  - split; cbn [c_body c_map c_dict]; [apply map_ok_insert|apply full_insert]; assumption.
Qed.
Lemma close_end body it : is_table_or_aot it = false -> body <> [] -> forall m p tks d k,
  match nth_error body (List.length body - 1) with
  | Some (pk, prev) => if is_wsitem prev || ends_with_whitespace prev || inb chLF (tr_trail (item_trivia prev))
                       then raw_append (Cont body m p tks d) k it
                       else raw_append (Cont (list_set (List.length body - 1) (pk, add_nl_trail prev) body) m p tks d) k it
  | None => raw_append (Cont body m p tks d) k it
  end = raw_append (Cont (close_line it body) m p tks d) k it.
Proof.
  intros Hi Hb m p tks d k. unfold close_line. destruct (List.length body) as [|n] eqn:El; [destruct body; [congruence|discriminate]|]. replace (S n - 1) with n by lia.
  destruct (nth_error body n) as [[pk prev]|]; [|reflexivity]. unfold ends_line. rewrite Hi, orb_false_r. destruct (_ || _); reflexivity.
Qed.

(** Where a new plain entry goes. *)
Definition plain_place (c : container) : nat := if c_parsed c then List.length (c_body c) else last_index_before_table (c_body c).
Lemma last_index_le body : forall i acc, acc <= i -> last_index_loop body i acc <= i + List.length body.
Proof.
  induction body as [|[k v] body IH]; intros i acc H; cbn [last_index_loop List.length]; [lia|].
  destruct (is_null v); [specialize (IH (S i) acc); lia|]. destruct (match v with IWs _ f => negb f | _ => false end); [specialize (IH (S i) acc); lia|].
  destruct (_ && _); [lia|]. specialize (IH (S i) (S i)). lia.
Qed.
Lemma append_end_new c k it : consistent c -> plain it -> map_get (k_key k) (c_map c) = None ->
  exists c' b1', append_end c (Some k) it = Ok c' /\
    add_shape c k it c' (firstn (plain_place c) (c_body c)) b1' (skipn (plain_place c) (c_body c))
    /\ (c_parsed c = false -> b1' = close_line it (firstn (plain_place c) (c_body c))).
Proof.
  intros Hc Hp N. pose proof (plain_not_table _ Hp) as Ht. destruct c as [body m p tks d]. unfold append_end, plain_place. cbn [c_parsed c_body c_map] in *. rewrite Ht.
  cbn [negb orb]. rewrite andb_true_r. destruct p; cbn [negb].
  - rewrite andb_false_r. rewrite firstn_all, skipn_all. destruct (raw_append_new _ body _ _ _ _ k it Hc (sim_refl _) N) as (c' & E & S). exists c', body. split; [exact E|]. split; [exact S|discriminate].
  - rewrite andb_true_r. destruct body as [|x body].
    { cbn [List.length Nat.ltb Nat.leb]. destruct (raw_append_new _ [] _ _ _ _ k it Hc (sim_refl _) N) as (c' & E & S). exists c', []. split; [exact E|]. split; [exact S|]. reflexivity. }
    replace (0 <? List.length (x :: body)) with true by reflexivity. cbv zeta. pose proof (last_index_le (x :: body) 0 0 (le_n 0)) as Hle. unfold last_index_before_table.
    destruct (Nat.ltb_spec (last_index_loop (x :: body) 0 0) (List.length (x :: body))) as [Hlt|Hge].
    + destruct (insert_at_new _ _ k it Hc Hlt N) as (c' & E & S). exists c', (close_line it (firstn (last_index_loop (x :: body) 0 0) (x :: body))). split; [exact E|]. split; [exact S|]. reflexivity.
    + replace (last_index_loop (x :: body) 0 0) with (List.length (x :: body)) by (cbn [plus] in Hle; lia). rewrite firstn_all, skipn_all. rewrite close_end; [|exact Ht|discriminate].
      destruct (raw_append_new _ _ _ _ _ _ k it Hc (close_sim it _) N) as (c' & E & S). exists c', (close_line it (x :: body)). split; [exact E|]. split; [exact S|]. reflexivity.
Qed.

(** * Removal *)
Lemma remove_ok c k ci : consistent c -> map_get k (c_map c) = Some ci ->
  exists c', remove c k = Ok c' /\ consistent c' /\ c_dict c' = dict_del k (c_dict c) /\ c_parsed c' = c_parsed c
    /\ c_body c' = fold_left (fun b x => list_set x (None, INull) b) (idxs ci) (c_body c)
    /\ (forall x, x <> k -> get_item c' x = get_item c x)
    /\ (forall x, map_get x (c_map c') = if str_eqb x k then None else map_get x (c_map c)).
Proof.
  intros [M [F D]] H. destruct c as [body m p tks d]. cbn [c_body c_map c_dict] in *. unfold remove. rewrite H. eexists. split; [reflexivity|].
  change (match ci with One x => [x] | Many l => l end) with (idxs ci). set (body' := fold_left _ (idxs ci) body).
  assert (Hn : forall i, nth_error body' i = if existsb (Nat.eqb i) (idxs ci) then (if i <? List.length body then Some (@None skey, INull) else None) else nth_error body i) by (intros; apply nth_null_fold).
  assert (In_ex : forall i, existsb (Nat.eqb i) (idxs ci) = true <-> In i (idxs ci)).
  { intros i. rewrite existsb_exists. split; [intros (y & Hy & Ey); apply Nat.eqb_eq in Ey; subst; exact Hy|]. intros X. exists i. split; [exact X|apply Nat.eqb_refl]. }
  assert (Other : forall x cj i, x <> k -> map_get x m = Some cj -> In i (idxs cj) -> nth_error body' i = nth_error body i).
  { intros x cj i Hx Hj Hi. rewrite Hn. destruct (existsb (Nat.eqb i) (idxs ci)) eqn:E; [|reflexivity]. exfalso. apply In_ex in E.
    destruct (M _ _ H) as (_ & _ & K1). destruct (M _ _ Hj) as (_ & _ & K2). rewrite Forall_forall in K1, K2. destruct (K1 _ E) as (s1 & w1 & N1 & <- & _). destruct (K2 _ Hi) as (s2 & w2 & N2 & <- & _).
    rewrite N1 in N2. inversion N2; subst. congruence. }
  assert (Nd : NoDup (map fst m)) by apply D.
  split; [split; [|split]|].
  - cbn [c_body c_map]. intros x cj. rewrite map_get_del by exact Nd. destruct (str_eqb x k) eqn:E; [discriminate|]. apply str_eqb_neq in E. intros Hj. destruct (M _ _ Hj) as (A & B & C).
    split; [exact A|]. split; [exact B|]. rewrite Forall_forall in *. intros i Hi. destruct (C _ Hi) as (sk & v & N & K & T). exists sk, v. rewrite (Other _ _ _ E Hj Hi). auto.
  - cbn [c_body c_map]. intros i sk v E. rewrite Hn in E. destruct (existsb (Nat.eqb i) (idxs ci)) eqn:Ex; [destruct (_ <? _); discriminate|].
    destruct (F _ _ _ E) as (cj & E1 & I1). exists cj. split; [|exact I1]. rewrite map_get_del by exact Nd. destruct (str_eqb (k_key sk) k) eqn:Ek; [|exact E1].
    apply str_eqb_eq in Ek. rewrite Ek, H in E1. inversion E1; subst. apply In_ex in I1. congruence.
  - cbn [c_map c_dict]. apply dict_ok_del, D.
  - split; [reflexivity|]. split; [reflexivity|]. split; [reflexivity|]. split.
    + intros x Hx. unfold get_item. cbn [c_map c_body]. rewrite map_get_del_ne by exact Hx. destruct (map_get x m) as [[i|]|] eqn:E; try reflexivity.
      rewrite (Other _ _ i Hx E (or_introl eq_refl)). reflexivity.
    + intros x. cbn [c_map]. apply map_get_del, Nd.
Qed.

(** * Replacing a plain value by a plain value *)
Definition put (c : container) (i : nat) (e : option skey * item) (m : list (str * cidx)) : container :=
  let 'Cont body _ p tks d := c in Cont (list_set i e body) m p tks d.
Lemma list_set_twice {A} i (x y : A) l : list_set i x (list_set i y l) = list_set i x l.
Proof. revert i. induction l as [|z l IH]; intros [|i]; cbn; try reflexivity. rewrite IH. reflexivity. Qed.
Lemma replace_plain n strict c i sk v0 v : consistent c -> map_get (k_key sk) (c_map c) = Some (One i) -> nth_error (c_body c) i = Some (Some sk, v0) -> plain v0 -> plain v ->
  replace_at (S n) strict c (map_get (k_key sk) (c_map c)) (NKStr (k_key sk)) v
  = Ok (put c i (Some sk, copy_trivia v v0) (map_set (k_key sk) (One i) (map_del (k_key sk) (c_map c)))).
Proof.
  intros Hc Hm Hn P0 P. rewrite Hm. destruct c as [body m p tks d]. cbn [c_body c_map] in *. cbn [replace_at]. rewrite Hn.
  rewrite (plain_not_table _ P), (plain_not_table _ P0). cbn [xorb orb]. rewrite str_eqb_refl. cbn [negb rbind]. reflexivity.
Qed.
Lemma put_ok c i sk v0 v : consistent c -> map_get (k_key sk) (c_map c) = Some (One i) -> nth_error (c_body c) i = Some (Some sk, v0) ->
  let c' := put c i (Some sk, v) (map_set (k_key sk) (One i) (map_del (k_key sk) (c_map c))) in
  consistent c' /\ c_dict c' = c_dict c /\ c_parsed c' = c_parsed c /\ get_item c' (k_key sk) = Some v
  /\ (forall x, x <> k_key sk -> get_item c' x = get_item c x)
  /\ (forall x, map_get x (c_map c') = map_get x (c_map c)).
Proof.
  intros [M [F D]] Hm Hn c'. destruct c as [body m p tks d]. cbn [c_body c_map c_dict] in *. subst c'. cbn [put].
  assert (Nd : NoDup (map fst m)) by apply D.
  assert (Hg : forall x, map_get x (map_set (k_key sk) (One i) (map_del (k_key sk) m)) = map_get x m).
  { intros x. rewrite map_get_set, map_get_del by exact Nd. destruct (str_eqb x (k_key sk)) eqn:E; [apply str_eqb_eq in E; congruence|reflexivity]. }
  assert (Hlt : (i <? List.length body) = true) by (apply Nat.ltb_lt, nth_error_Some; congruence).
  assert (Uniq : forall x ci j, x <> k_key sk -> map_get x m = Some ci -> In j (idxs ci) -> j <> i).
  { intros x ci j Hx Hx2 Hj ->. destruct (M _ _ Hx2) as (_ & _ & K). rewrite Forall_forall in K. destruct (K _ Hj) as (s1 & w1 & N1 & <- & _). congruence. }
  split; [split; [|split]|]; cbn [c_body c_map c_dict c_parsed].
  - intros x ci. rewrite Hg. intros Hx. destruct (M _ _ Hx) as (A & B & C). split; [exact A|]. split; [exact B|]. rewrite Forall_forall in *. intros j Hj. destruct (C _ Hj) as (s1 & w1 & N1 & K1 & T1).
    unfold keyed. rewrite nth_list_set. destruct (Nat.eqb_spec j i) as [->|Nj]; [|exists s1, w1; auto].
    rewrite Hlt. exists sk, v. rewrite Hn in N1. inversion N1; subst. rewrite Hm in Hx. inversion Hx; subst. repeat split; auto; discriminate.
  - intros j s1 w1. rewrite nth_list_set, Hg. destruct (Nat.eqb_spec j i) as [->|Nj]; [|apply F]. rewrite Hlt. intros X; inversion X; subst. exists (One i). split; [exact Hm|left; reflexivity].
  - apply dict_ok_move; [exact D|congruence].
  - split; [reflexivity|]. split; [reflexivity|]. split; [|split].
    + unfold get_item. cbn [c_map c_body]. rewrite Hg, Hm, nth_list_set, Nat.eqb_refl, Hlt. reflexivity.
    + intros x Hx. unfold get_item. cbn [c_map c_body]. rewrite Hg. destruct (map_get x m) as [[j|]|] eqn:E; try reflexivity. rewrite nth_list_set.
      destruct (Nat.eqb_spec j i) as [->|Nj]; [|reflexivity]. exfalso. exact (Uniq _ _ i Hx E (or_introl eq_refl) eq_refl).
    + exact Hg.
Qed.

(** * The operations of a user *)
(** [doc.add(k, v)] / [doc.append(k, v)], [doc[k] = v], [del doc[k]], [k] a str
    and [v] an item (container.py:97-116, 628-637). *)
Definition cstep (c : container) (o : cop item) : res container :=
  match o with
  | CAdd k v => cappend false c (Some (KSingle (skey_of_str k))) v
  | CSet k v => set_item c k v
  | CDel k => remove c k
  end.
(** A history: an operation that raises changes nothing. *)
Fixpoint crun (c : container) (os : list (cop item)) : container :=
  match os with
  | [] => c
  | o :: os' => crun (match cstep c o with Ok c' => c' | Err _ => c end) os'
  end.

Lemma okey_eqb_str a b : okey_eqb a b = str_eqb a b.
Proof. unfold okey_eqb. destruct (list_eq_dec N.eq_dec a b) as [->|H]; [symmetry; apply str_eqb_refl|]. symmetry. apply str_eqb_neq, H. Qed.
Lemma oget_map {A} (f : str -> A) k l : oget k (map (fun x => (x, f x)) l) = if existsb (str_eqb k) l then Some (f k) else None.
Proof.
  induction l as [|x l IH]; cbn [map oget existsb]; [reflexivity|]. rewrite okey_eqb_str. destruct (str_eqb k x) eqn:E; cbn [orb]; [apply str_eqb_eq in E; congruence|exact IH].
Qed.
Lemma oget_view c k : consistent c -> oget k (view c) = match map_get k (c_map c) with Some _ => Some (option_map strip (get_item c k)) | None => None end.
Proof.
  intros H. unfold view. rewrite (oget_map (fun k => option_map strip (get_item c k))). pose proof (consistent_dict c k H) as D. destruct (existsb (str_eqb k) (c_dict c)) eqn:E.
  - apply existsb_in, D in E. destruct (map_get k (c_map c)); [reflexivity|congruence].
  - destruct (map_get k (c_map c)) eqn:M; [|reflexivity]. assert (X : In k (c_dict c)) by (apply D; congruence). apply existsb_in in X. congruence.
Qed.
Lemma oset_new {A} (f : str -> A) k v l : ~ In k l -> oset k v (map (fun x => (x, f x)) l) = map (fun x => (x, f x)) l ++ [(k, v)].
Proof.
  induction l as [|x l IH]; intros H; cbn [map oset app]; [reflexivity|]. rewrite okey_eqb_str. destruct (str_eqb k x) eqn:E; [apply str_eqb_eq in E; exfalso; apply H; left; auto|].
  rewrite IH; [reflexivity|]. intros X. apply H. right. exact X.
Qed.
Lemma oset_old {A} (f g : str -> A) k l : In k l -> NoDup l -> (forall x, x <> k -> g x = f x) -> oset k (g k) (map (fun x => (x, f x)) l) = map (fun x => (x, g x)) l.
Proof.
  induction l as [|x l IH]; intros H Hn Hg; [destruct H|]. cbn [map oset]. rewrite okey_eqb_str. inversion Hn; subst. destruct (str_eqb k x) eqn:E.
  - apply str_eqb_eq in E. subst x. f_equal. apply map_ext_in. intros y Hy. rewrite Hg; [reflexivity|]. intros ->. contradiction.
  - apply str_eqb_neq in E. destruct H as [H|H]; [congruence|]. rewrite IH by assumption. rewrite Hg by congruence. reflexivity.
Qed.
Lemma odel_map {A} (f g : str -> A) k l : (forall x, x <> k -> g x = f x) -> odel k (map (fun x => (x, f x)) l) = map (fun x => (x, g x)) (dict_del k l).
Proof.
  intros Hg. unfold odel, dict_del. induction l as [|x l IH]; cbn [map filter fst]; [reflexivity|]. rewrite okey_eqb_str. destruct (str_eqb k x) eqn:E; cbn [negb map]; [exact IH|].
  rewrite IH. apply str_eqb_neq in E. rewrite Hg by congruence. reflexivity.
Qed.

(** What a history may do: the values are plain; [doc[k] = v] is not used on a
    key bound to a table; [add] is not used on an out-of-order table. *)
Definition allowed (m : omap (option item)) (o : cop item) : Prop :=
  match o with
  | CAdd k v => plain v /\ oget k m <> Some None
  | CSet k v => plain v /\ match oget k m with None => True | Some (Some i) => plain i | Some None => False end
  | CDel _ => True
  end.
Definition shown (o : cop item) : cop (option item) := cop_map (fun v => Some (strip v)) o.
Fixpoint allowed_all (m : omap (option item)) (os : list (cop item)) : Prop :=
  match os with
  | [] => True
  | o :: os' => allowed m o /\ allowed_all (match ostep m (shown o) with ODone m' => m' | _ => m end) os'
  end.

Lemma get_none c k : get_item c k = None -> consistent c -> map_get k (c_map c) = None \/ exists l, map_get k (c_map c) = Some (Many l).
Proof.
  unfold get_item. intros H [M _]. destruct (map_get k (c_map c)) as [[i|l]|] eqn:E; [|eauto|auto]. exfalso.
  destruct (M _ _ E) as (_ & _ & K). apply Forall_inv in K. destruct K as (sk & v & N & _). rewrite N in H. discriminate.
Qed.
Lemma get_one c k i : consistent c -> map_get k (c_map c) = Some (One i) -> exists sk v, nth_error (c_body c) i = Some (Some sk, v) /\ k_key sk = k /\ get_item c k = Some v.
Proof.
  intros [M _] E. destruct (M _ _ E) as (_ & _ & K). apply Forall_inv in K. destruct K as (sk & v & N & K & _). exists sk, v. split; [exact N|]. split; [exact K|]. unfold get_item. rewrite E, N. reflexivity.
Qed.
Lemma app_fuel_pos c k it : exists n, app_fuel c k it = S (S (S n)).
Proof. unfold app_fuel. set (a := _ + _ + _). exists (8 * a + 5). lia. Qed.
Lemma append_new n prox strict c k v val : consistent c -> plain v -> map_get (k_key k) (c_map c) = None ->
  append (S (S n)) prox strict c (Some (KSingle k)) v val = append_end c (Some k) v.
Proof.
  intros Hc Hp H. cbn [append kstr]. rewrite plain_name, plain_pre by exact Hp. destruct n; cbn [contains]; rewrite H; reflexivity.
Qed.
Lemma append_dup n prox strict c k v val i : consistent c -> plain v -> map_get (k_key k) (c_map c) = Some (One i) ->
  append (S (S n)) prox strict c (Some (KSingle k)) v val = Err (KeyAlreadyPresentE (k_key k)).
Proof.
  intros Hc Hp H. destruct (get_one _ _ _ Hc H) as (sk & w & N & _). cbn [append kstr]. rewrite plain_name, plain_pre by exact Hp.
  change (contains (S n) c (k_key k)) with (match map_get (k_key k) (c_map c) with
      | None => Ok false | Some (One _) => Ok true
      | Some (Many l) => match proxy n c l with Ok _ => Ok true | Err (NonExistentKeyE _) => Ok false | Err e => Err e end end).
  rewrite H. cbn [rbind negb]. destruct c as [body m p tks d]. cbn [c_map c_body] in *. rewrite H, N. destruct v; try (destruct Hp); reflexivity.
Qed.
Lemma skey_of_str_key k : k_key (skey_of_str k) = k.
Proof. unfold skey_of_str. reflexivity. Qed.

Lemma add_view c k v : consistent c -> plain v -> map_get k (c_map c) = None ->
  exists c', cappend false c (Some (KSingle (skey_of_str k))) v = Ok c' /\ consistent c' /\ view c' = oset k (Some (strip v)) (view c).
Proof.
  intros Hc Hp H. unfold cappend. destruct (app_fuel_pos c (Some (KSingle (skey_of_str k))) v) as [n ->]. rewrite append_new by assumption.
  destruct (append_end_new c (skey_of_str k) v Hc Hp H) as (c' & b1' & E & S & _). exists c'. split; [exact E|]. destruct S as [_ _ _ Sd _ Sg So _ Sc]. rewrite skey_of_str_key in *. split; [exact Sc|].
  unfold view. rewrite oset_new by (rewrite (consistent_dict c k Hc); congruence). rewrite Sd, map_app. cbn [map]. rewrite Sg. f_equal. apply map_ext_in. intros x Hx. rewrite So; [reflexivity|].
  intros ->. apply (consistent_dict c k Hc) in Hx. congruence.
Qed.
Theorem step_view c o : consistent c -> allowed (view c) o ->
  match ostep (view c) (shown o) with
  | ODone m => exists c', cstep c o = Ok c' /\ consistent c' /\ view c' = m
  | ODuplicate k => cstep c o = Err (KeyAlreadyPresentE k)
  | OMissing k => cstep c o = Err (NonExistentKeyE k)
  end.
Proof.
  intros Hc Ha. pose proof Hc as [M [F D]]. destruct o as [k v|k v|k]; cbn [shown cop_map ostep cstep allowed] in *.
  - destruct Ha as [Hp Ha]. rewrite oget_view in * by exact Hc. destruct (map_get k (c_map c)) as [[i|l]|] eqn:E.
    + unfold cappend. destruct (app_fuel_pos c (Some (KSingle (skey_of_str k))) v) as [n ->]. exact (append_dup _ Own false c (skey_of_str k) v true i Hc Hp E).
    + exfalso. apply Ha. unfold get_item. rewrite E. reflexivity.
    + apply add_view; assumption.
  - destruct Ha as [Hp Ha]. unfold set_item. destruct (app_fuel_pos c (Some (KSingle (skey_of_str k))) v) as [n ->]. rewrite oget_view in Ha by exact Hc.
    change (contains (S (S (S n))) c k) with (match map_get k (c_map c) with
      | None => Ok false | Some (One _) => Ok true
      | Some (Many l) => match proxy (S (S n)) c l with Ok _ => Ok true | Err (NonExistentKeyE _) => Ok false | Err e => Err e end end).
    destruct (map_get k (c_map c)) as [[i|l]|] eqn:E; cbn [rbind].
    + destruct (get_one _ _ _ Hc E) as (sk & w & N & K & G). rewrite G in Ha. cbn [option_map] in Ha. apply (proj1 (plain_strip w)) in Ha. subst k.
      rewrite <- E. rewrite (replace_plain _ _ _ _ _ _ _ Hc E N Ha Hp). eexists. split; [reflexivity|].
      destruct (put_ok c i sk w (copy_trivia v w) Hc E N) as (P1 & P2 & _ & P3 & P4 & _). split; [exact P1|]. unfold view. rewrite P2. symmetry.
      set (c' := put _ _ _ _) in *. replace (Some (strip v)) with (option_map strip (get_item c' (k_key sk))) by (rewrite P3; cbn; f_equal; apply strip_copy, Hp).
      apply (oset_old (fun x => option_map strip (get_item c x)) (fun x => option_map strip (get_item c' x))); [apply (consistent_dict c _ Hc); congruence|apply D|]. intros x Hx. rewrite P4 by exact Hx. reflexivity.
    + exfalso. unfold get_item in Ha. rewrite E in Ha. exact Ha.
    + rewrite append_new by assumption. destruct (append_end_new c (skey_of_str k) v Hc Hp E) as (c' & b1' & E' & S & _). exists c'. split; [exact E'|]. destruct S as [_ _ _ Sd _ Sg So _ Sc]. rewrite skey_of_str_key in *. split; [exact Sc|].
      unfold view. rewrite oset_new by (rewrite (consistent_dict c k Hc); congruence). rewrite Sd, map_app. cbn [map]. rewrite Sg. f_equal. apply map_ext_in. intros x Hx. rewrite So; [reflexivity|].
      intros ->. apply (consistent_dict c k Hc) in Hx. congruence.
  - rewrite oget_view by exact Hc. destruct (map_get k (c_map c)) as [ci|] eqn:E.
    + destruct (remove_ok c k ci Hc E) as (c' & R1 & R2 & R3 & _ & _ & R4 & _). exists c'. split; [exact R1|]. split; [exact R2|]. unfold view. rewrite R3. symmetry. apply odel_map. intros x Hx. rewrite R4 by exact Hx. reflexivity.
    + unfold remove. destruct c as [body m p tks d]. cbn [c_map] in E. rewrite E. reflexivity.
Qed.
Theorem run_view os : forall c, consistent c -> allowed_all (view c) os -> consistent (crun c os) /\ view (crun c os) = orun (view c) (map shown os).
Proof.
  induction os as [|o os IH]; intros c Hc Ha; cbn [crun orun map]; [auto|]. destruct Ha as [H1 H2]. pose proof (step_view c o Hc H1) as S.
  destruct (ostep (view c) (shown o)) as [m|k|k].
  - destruct S as (c' & -> & S1 & <-). apply IH; assumption.
  - rewrite S. apply IH; assumption.
  - rewrite S. apply IH; assumption.
Qed.
