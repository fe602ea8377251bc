(** LookupFacts: what [doc[k1][k2]...] finds, in terms of the facts of the document (C39). *)
From Verif Require Import Base Source Utils Items Container Parser Lookup Lemmas Consist Wf OMap ContOps Fuel Meaning Facts.
From Coq Require Import Permutation ZifyBool ZifyNat ZifyN.
Open Scope nat_scope.

Lemma strip_path_app p q path : strip_path (p ++ q) path = match strip_path p path with Some r => strip_path q r | None => None end.
Proof. revert path. induction p as [|x p IH]; intros path; [reflexivity|]. destruct path as [|y path]; [reflexivity|]. cbn [app strip_path]. destruct (str_eqb x y); [apply IH|reflexivity]. Qed.
Lemma strip_path_some p path r : strip_path p path = Some r <-> path = p ++ r.
Proof.
  revert path. induction p as [|x p IH]; intros path; cbn [strip_path app].
  - split; intros H; [injection H as <-|subst]; reflexivity.
  - destruct path as [|y path]; [split; discriminate|]. destruct (str_eqb x y) eqn:E.
    + apply str_eqb_eq in E as ->. rewrite IH. split; [intros ->; reflexivity|]. intros K. injection K as ->. reflexivity.
    + split; [discriminate|]. intros K. injection K as -> _. rewrite (proj2 (str_eqb_eq _ _) eq_refl) in E. discriminate.
Qed.
Section Below.
Context {A : Type}.
Implicit Types l : list (list str * A).
Lemma below_app p l l' : below p (l ++ l') = below p l ++ below p l'. Proof. apply Facts.flat_map_app. Qed.
Lemma below_below p q l : below q (below p l) = below (p ++ q) l.
Proof.
  induction l as [|[path a] l IH]; [reflexivity|]. change (below p ((path, a) :: l)) with (match strip_path p path with Some r => [(r, a)] | None => [] end ++ below p l).
  change (below (p ++ q) ((path, a) :: l)) with (match strip_path (p ++ q) path with Some r => [(r, a)] | None => [] end ++ below (p ++ q) l). rewrite below_app, IH, strip_path_app. f_equal. destruct (strip_path p path); [|reflexivity]. cbn. apply app_nil_r.
Qed.
Lemma below_cons p q a l : below p ((q, a) :: l) = match strip_path p q with Some r => (r, a) :: below p l | None => below p l end.
Proof. unfold below. cbn [flat_map fst snd]. destruct (strip_path p q); reflexivity. Qed.
Lemma below_nil l : below [] l = l.
Proof. induction l as [|[path a] l IH]; [reflexivity|]. rewrite below_cons. cbn [strip_path]. rewrite IH. reflexivity. Qed.
Lemma below_perm p l l' : Permutation l l' -> Permutation (below p l) (below p l').
Proof. apply Permutation_flat_map. Qed.
Lemma below_in p l r a : In (r, a) (below p l) <-> In (p ++ r, a) l.
Proof.
  unfold below. rewrite in_flat_map. split.
  - intros ([path b] & Hi & H). cbn [fst snd] in H. destruct (strip_path p path) eqn:E; [|destruct H]. destruct H as [H|[]]. injection H as -> ->. apply strip_path_some in E as ->. exact Hi.
  - intros H. exists (p ++ r, a). split; [exact H|]. cbn [fst snd]. rewrite (proj2 (strip_path_some p (p ++ r) r) eq_refl). left. reflexivity.
Qed.
End Below.
Lemma below_under k fs : below [k] (under [k] fs) = fs.
Proof. induction fs as [|[q o] fs IH]; [reflexivity|]. change (under [k] ((q, o) :: fs)) with ((k :: q, o) :: under [k] fs). rewrite below_cons, IH. cbn [strip_path]. rewrite (proj2 (str_eqb_eq k k) eq_refl). reflexivity. Qed.
Lemma below_other k k' fs : k <> k' -> below [k] (under [k'] fs) = [].
Proof. intros H. induction fs as [|[q o] fs IH]; [reflexivity|]. change (under [k'] ((q, o) :: fs)) with ((k' :: q, o) :: under [k'] fs). rewrite below_cons, IH. cbn [strip_path]. destruct (str_eqb k k') eqn:E; [apply str_eqb_eq in E; congruence|reflexivity]. Qed.

(** A list indexed by its positions. *)
Definition at_pos {A B} (g : A -> list B) (l : list A) (i : nat) : list B := match nth_error l i with Some x => g x | None => [] end.
Lemma flat_ext {A B} (f g : A -> list B) l : (forall x, In x l -> f x = g x) -> flat_map f l = flat_map g l.
Proof. induction l as [|x l IH]; intros H; [reflexivity|]. cbn. rewrite (H x) by (left; reflexivity). f_equal. apply IH. intros y Hy. apply H. right. exact Hy. Qed.
Lemma flat_positions {A B} (g : A -> list B) l : flat_map g l = flat_map (at_pos g l) (seq 0 (List.length l)).
Proof.
  induction l as [|x l IH] using rev_ind; [reflexivity|]. rewrite Facts.flat_map_app, app_length, Nat.add_comm. cbn [List.length Nat.add]. rewrite seq_S, Facts.flat_map_app, IH. f_equal.
  - apply flat_ext. intros i Hi. apply in_seq in Hi. unfold at_pos. rewrite nth_error_app1 by lia. reflexivity.
  - cbn [flat_map]. rewrite !app_nil_r. unfold at_pos. rewrite nth_error_app2 by lia. cbn [Nat.add]. rewrite Nat.sub_diag. reflexivity.
Qed.
Lemma flat_empty {A B} (f : A -> list B) l : (forall x, In x l -> f x = []) -> flat_map f l = [].
Proof. induction l as [|x l IH]; intros H; [reflexivity|]. cbn. rewrite (H x) by (left; reflexivity). apply IH. intros y Hy. apply H. right. exact Hy. Qed.
Lemma filter_perm {A} (f : A -> bool) l : Permutation l (filter f l ++ filter (fun x => negb (f x)) l).
Proof. induction l as [|x l IH]; [constructor|]. cbn. destruct (f x); cbn [negb app]; [constructor; exact IH|]. rewrite IH at 1. apply Permutation_middle. Qed.
Lemma positions_perm {B} (h : nat -> list B) n l : NoDup l -> (forall i, In i l -> i < n) -> (forall i, i < n -> ~ In i l -> h i = []) -> Permutation (flat_map h (seq 0 n)) (flat_map h l).
Proof.
  intros Hd Hr Hz. set (inl := fun i => if in_dec Nat.eq_dec i l then true else false).
  rewrite (Permutation_flat_map h (filter_perm inl (seq 0 n))), Facts.flat_map_app. rewrite (flat_empty h (filter (fun x => negb (inl x)) (seq 0 n))).
  - rewrite app_nil_r. apply Permutation_flat_map, NoDup_Permutation; [apply NoDup_filter, seq_NoDup|exact Hd|]. intros i. rewrite filter_In, in_seq. unfold inl. destruct (in_dec Nat.eq_dec i l) as [K|K]; [|split; [intros [_ ?]; discriminate|contradiction]]. split; [auto|]. intros _. split; [|reflexivity]. specialize (Hr i K). lia.
  - intros i Hi. apply filter_In in Hi as [H1 H2]. apply in_seq in H1. unfold inl in H2. destruct (in_dec Nat.eq_dec i l); [discriminate|]. apply Hz; [lia|assumption].
Qed.

(** * One key *)
Definition shown (i : item) : item := match i with IWs _ _ | IComment _ | INull => INull | _ => bare i end.
Definition kept (k : str) (kv : option skey * item) : list fact := match kv with (Some k', v) => if str_eqb k (k_key k') then facts_item v else [] | (None, _) => [] end.
Lemma below_efacts k kv : below [k] (efacts kv) = kept k kv.
Proof.
  destruct kv as [[k'|] v]; [|reflexivity]. cbn [efacts kept]. destruct (str_eqb k (k_key k')) eqn:E.
  - apply str_eqb_eq in E as <-. apply below_under.
  - apply below_other. intros K. rewrite (proj2 (str_eqb_eq _ _) K) in E. discriminate.
Qed.
Lemma below_facts k c : below [k] (facts c) = flat_map (kept k) (c_body c).
Proof.
  rewrite facts_body. induction (c_body c) as [|kv b IH]; [reflexivity|]. change (flat_map efacts (kv :: b)) with (efacts kv ++ flat_map efacts b). change (flat_map (kept k) (kv :: b)) with (kept k kv ++ flat_map (kept k) b). etransitivity; [apply (below_app [k] (efacts kv) (flat_map efacts b))|]. rewrite IH, below_efacts. reflexivity.
Qed.
Lemma kept_pos k c i : ~ (exists ci, map_get k (c_map c) = Some ci /\ In i (idxs ci)) -> consistent c -> at_pos (kept k) (c_body c) i = [].
Proof.
  intros H [_ [Hc _]]. unfold at_pos. destruct (nth_error (c_body c) i) as [[[k'|] v]|] eqn:E; try reflexivity. cbn [kept]. destruct (str_eqb k (k_key k')) eqn:Ek; [|reflexivity]. apply str_eqb_eq in Ek as ->. exfalso. apply H, (Hc _ _ _ E).
Qed.
Lemma below_idxs k c ci : consistent c -> map_get k (c_map c) = Some ci -> Permutation (below [k] (facts c)) (flat_map (at_pos (kept k) (c_body c)) (idxs ci)).
Proof.
  intros Hc Hm. rewrite below_facts, flat_positions. destruct (proj1 Hc _ _ Hm) as (_ & Hd & Hk). apply positions_perm; [exact Hd| |].
  - intros i Hi. rewrite Forall_forall in Hk. destruct (Hk i Hi) as (sk & v & E & _). apply nth_error_Some. congruence.
  - intros i _ Hi. apply kept_pos; [|exact Hc]. intros (ci' & E & Hi'). rewrite Hm in E. injection E as <-. contradiction.
Qed.
Definition only_none (l : list fact) : Prop := Forall (fun f => f = ([], None)) l.
Lemma own_none m : only_none (own_fact m). Proof. unfold own_fact, only_none. destruct (tm_super m) as [[]|]; repeat constructor. Qed.
Lemma only_app a b : only_none a -> only_none b -> only_none (a ++ b). Proof. intros. apply Forall_app. auto. Qed.
Definition other_err (e : exn) : Prop := match e with NonExistentKeyE _ | FuelE => False | _ => True end.
Lemma table_facts c m : tame (ITable c m) -> facts_item (ITable c m) <> [].
Proof. intros H. apply tame_inv in H as (_ & [A B] & _). cbn [facts_item]. unfold own_fact. destruct (tm_super m) as [[]|]; [apply B; reflexivity|discriminate|discriminate]. Qed.
Lemma getitem_f c k : tamec c -> match getitem c k with
  | Ok (ATable c') => tamec c' /\ below [k] (facts c) <> [] /\ exists own, only_none own /\ Permutation (below [k] (facts c)) (own ++ facts c')
  | Ok (AValue it) => below [k] (facts c) = [([], Some (shown it))]
  | Err (NonExistentKeyE _) => below [k] (facts c) = []
  | Err e => other_err e
  end.
Proof.
  intros Hc. unfold getitem. pose proof (tamec_cons _ Hc) as Hcons. destruct (map_get k (c_map c)) as [ci|] eqn:Em.
  - pose proof (below_idxs k c ci Hcons Em) as P. destruct (proj1 Hcons _ _ Em) as (_ & _ & Hk). destruct ci as [i|l]; cbn [idxs flat_map] in *.
    + rewrite app_nil_r in P. pose proof (Forall_inv Hk) as (sk & v & E & <- & _). rewrite E. pose proof (tamec_in _ _ _ Hc E) as Tv. cbn [snd] in Tv. unfold at_pos in P. rewrite E in P. cbn [kept] in P. rewrite (proj2 (str_eqb_eq _ _) eq_refl) in P.
      assert (V : is_table_or_aot v = false -> below [k_key sk] (facts c) = [([], Some (shown v))]).
      { intros K. apply Permutation_length_1_inv. symmetry. destruct v; try discriminate; exact P. }
      destruct v as [| | | | | |tc m|]; try (apply V; reflexivity).
      * pose proof (table_facts _ _ Tv) as Ne. apply tame_inv in Tv as (_ & _ & Tv). split; [exact Tv|]. split; [intros K; rewrite K in P; apply Permutation_nil in P; exact (Ne P)|]. exists (own_fact m). split; [apply own_none|exact P].
      * apply tame_noaot in Tv. discriminate.
    + pose proof (proj1 (proj2 (proj2 (all_f (app_fuel c None INull)))) c l Hc (range_f _ _ _ Hc Em)) as G. destruct (proxy _ c l) as [ic|e] eqn:Ep; cbn [rbind good] in *.
      * destruct G as [G1 G2]. split; [exact G2|]. split.
        { intros K. rewrite K in P. apply Permutation_nil in P. destruct (proj1 Hcons _ _ Em) as (Hne & _ & _). cbn [idxs] in Hne. destruct l as [|i l]; [inversion Hne|]. cbn [flat_map] in P. apply app_eq_nil in P as [P _].
          destruct (Forall_inv Hk) as (sk & v & E & <- & Ht). unfold at_pos in P. rewrite E in P. cbn [kept] in P. rewrite (proj2 (str_eqb_eq _ _) eq_refl) in P. specialize (Ht eq_refl). pose proof (tamec_in _ _ _ Hc E) as Tv. cbn [snd] in Tv. destruct v; try discriminate. exact (table_facts _ _ Tv P). }
        assert (X : forall l', Forall (keyed true (c_body c) k) l' -> exists own, only_none own /\ Permutation (flat_map (at_pos (kept k) (c_body c)) l') (own ++ flat_map (part_facts (c_body c)) l')).
        { induction l' as [|i l' IH]; intros Hk'; [exists []; split; constructor|]. inversion Hk' as [|? ? K1 K2]; subst. destruct (IH K2) as (own & O1 & O2). destruct K1 as (sk & v & E & <- & Ht). cbn [flat_map]. unfold at_pos at 1, part_facts at 1. rewrite E. cbn [kept]. rewrite (proj2 (str_eqb_eq _ _) eq_refl).
          specialize (Ht eq_refl). destruct v as [| | | | | |tc m|]; try discriminate. cbn [facts_item]. exists (own_fact m ++ own). split; [apply only_app; [apply own_none|exact O1]|]. rewrite O2, <- !app_assoc. apply Permutation_app_head. rewrite !app_assoc. apply Permutation_app_tail, Permutation_app_comm. }
        destruct (X l Hk) as (own & O1 & O2). exists own. split; [exact O1|]. rewrite P, O2, G1. reflexivity.
      * destruct e; try exact I; [destruct G|]. revert Ep. destruct (app_all_ok (app_fuel c None INull)) as (_ & _ & _ & IP & _). apply (fine_noerr (csize c - 1)), IP; [apply ch_bh, isize_h|unfold app_fuel; lia].
  - rewrite below_facts, flat_positions. apply flat_empty. intros i _. apply kept_pos; [|exact Hcons]. intros (ci & K & _). congruence.
Qed.
Lemma perm_eq {A} (a b : list A) : a = b -> Permutation a b. Proof. intros ->. apply Permutation_refl. Qed.
Lemma only_below q own : only_none own -> only_none (below q own).
Proof. intros H. induction H as [|x own -> H IH]; [constructor|]. destruct q; [|exact IH]. constructor; [reflexivity|exact IH]. Qed.
Lemma only_deep q own : only_none own -> q <> [] -> below q own = [].
Proof. intros H Hq. induction H as [|x own -> H IH]; [reflexivity|]. destruct q; [congruence|exact IH]. Qed.
Lemma walk_f p : forall c, tamec c -> match walk c p with
  | Ok (FTable c') => tamec c' /\ (p <> [] -> below p (facts c) <> []) /\ exists own, only_none own /\ Permutation (below p (facts c)) (own ++ facts c')
  | Ok (FValue it rest) => exists q, p = q ++ rest /\ q <> [] /\ below q (facts c) = [([], Some (shown it))]
  | Err (NonExistentKeyE _) => below p (facts c) = []
  | Err e => other_err e
  end.
Proof.
  induction p as [|k p IH]; intros c Hc; cbn [walk].
  { split; [exact Hc|]. split; [congruence|]. exists []. split; [constructor|]. rewrite below_nil. reflexivity. }
  pose proof (getitem_f c k Hc) as G. assert (B : forall q, below (k :: q) (facts c) = below q (below [k] (facts c))) by (intros q; rewrite below_below; reflexivity).
  destruct (getitem c k) as [[c'|it]|e]; cbn [rbind].
  - destruct G as (T & Gn & own & O & P). specialize (IH c' T).
    assert (Bo : forall q, exists own', only_none own' /\ Permutation (below (k :: q) (facts c)) (own' ++ below q (facts c')) /\ (q <> [] -> own' = [])).
    { intros q. exists (below q own). rewrite B. split.
      - apply only_below, O.
      - split; [eapply Permutation_trans; [apply (below_perm q _ _ P)|]; exact (perm_eq _ _ (below_app q own (facts c')))|]. intros Hq. apply only_deep; assumption. }
    destruct (walk c' p) as [[c2|it rest]|e] eqn:W.
    + destruct IH as (T2 & Nn & own2 & O2 & P2). split; [exact T2|]. destruct (Bo p) as (own' & O' & P' & _). split; [intros _ K; rewrite K in P'; apply Permutation_nil, app_eq_nil in P' as [_ P']; destruct p; [exact (Gn K)|apply Nn; [discriminate|exact P']]|]. exists (own' ++ own2). split; [apply only_app; assumption|]. rewrite P', P2, app_assoc. reflexivity.
    + destruct IH as (q & -> & Hq & E). exists (k :: q). split; [reflexivity|]. split; [discriminate|]. destruct (Bo q) as (own' & _ & P' & N). rewrite E, N in P' by exact Hq. apply Permutation_length_1_inv. symmetry. exact P'.
    + destruct e; try exact IH. destruct (Bo p) as (own' & O' & P' & N). rewrite IH in P'. destruct p; [discriminate W|]. rewrite N in P' by discriminate. apply Permutation_nil. symmetry. exact P'.
  - exists [k]. split; [reflexivity|]. split; [discriminate|exact G].
  - destruct e; try exact G. rewrite B, G. reflexivity.
Qed.
