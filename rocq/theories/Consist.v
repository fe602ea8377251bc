(** Consist: the index map, the dict and the body of a container agree. *)
From Verif Require Import Base Source Utils Items Container Lemmas.
From Coq Require Import ZifyBool ZifyNat ZifyN.
Open Scope nat_scope.

Definition idxs (ci : cidx) : list nat := match ci with One i => [i] | Many l => l end.
(** The entry at index [i] is keyed by [k]; a table if [tb]. *)
Definition keyed (tb : bool) (body : list (option skey * item)) (k : str) (i : nat) : Prop :=
  exists sk v, nth_error body i = Some (Some sk, v) /\ k_key sk = k /\ (tb = true -> is_table v = true).
Definition many (ci : cidx) : bool := match ci with Many _ => true | One _ => false end.
(** A tuple of indices has at least two. *)
Definition roomy (ci : cidx) : Prop := match ci with Many l => 2 <= List.length l | One _ => True end.
Lemma roomy_ne ci : roomy ci -> idxs ci <> [].
Proof. destruct ci as [i|[|i l]]; cbn; intros H E; try discriminate. inversion H. Qed.
(** Every index of the map names an entry with that key. *)
Definition map_ok (body : list (option skey * item)) (m : list (str * cidx)) : Prop :=
  forall k ci, map_get k m = Some ci ->
    roomy ci /\ NoDup (idxs ci)
    /\ Forall (keyed (match ci with Many _ => true | One _ => false end) body k) (idxs ci).
(** Every keyed entry is in the map. *)
Definition complete (body : list (option skey * item)) (m : list (str * cidx)) : Prop :=
  forall i sk v, nth_error body i = Some (Some sk, v) -> exists ci, map_get (k_key sk) m = Some ci /\ In i (idxs ci).
(** The dict has exactly the keys of the map. *)
Definition dict_ok (m : list (str * cidx)) (d : list str) : Prop :=
  NoDup (map fst m) /\ NoDup d /\ forall k, In k d <-> map_get k m <> None.
Definition full (body : list (option skey * item)) (m : list (str * cidx)) (d : list str) : Prop :=
  complete body m /\ dict_ok m d.
Definition consistent (c : container) : Prop := map_ok (c_body c) (c_map c) /\ full (c_body c) (c_map c) (c_dict c).

(** * Lists and maps *)
Lemma nth_list_set {A} n (x : A) l i :
  nth_error (list_set n x l) i = if Nat.eqb i n then (if Nat.ltb i (List.length l) then Some x else None) else nth_error l i.
Proof.
  revert n i; induction l as [|y l IH]; intros n i.
  - assert (E : list_set n x [] = []) by (destruct n; reflexivity). rewrite E.
    assert (E2 : nth_error (@nil A) i = None) by (destruct i; reflexivity). rewrite E2. cbn [List.length].
    destruct (Nat.eqb i n); [|reflexivity]. destruct (Nat.ltb_spec i 0); [lia|reflexivity].
  - destruct n as [|n]; destruct i as [|i]; cbn [list_set nth_error]; try reflexivity.
    rewrite IH. reflexivity.
Qed.
Lemma length_list_set {A} n (x : A) l : List.length (list_set n x l) = List.length l.
Proof. revert n; induction l as [|y l IH]; intros [|n]; cbn; auto. Qed.
Lemma Forall_list_set {A} (P : A -> Prop) n x l : Forall P l -> P x -> Forall P (list_set n x l).
Proof.
  intros H Hx. revert n; induction H as [|y l Hy Hl IH]; intros [|n]; cbn [list_set]; try constructor; auto.
Qed.
Lemma map_get_set k v k' m : map_get k (map_set k' v m) = if str_eqb k k' then Some v else map_get k m.
Proof.
  induction m as [|[a b] m IH]; cbn [map_set map_get]; [reflexivity|].
  destruct (str_eqb k' a) eqn:E; cbn [map_get].
  - apply str_eqb_eq in E. subst. destruct (str_eqb k a); reflexivity.
  - rewrite IH. destruct (str_eqb k a) eqn:E2; [|reflexivity]. apply str_eqb_eq in E2. subst.
    rewrite str_eqb_sym, E. reflexivity.
Qed.
Lemma map_get_del_ne k k' m : k <> k' -> map_get k (map_del k' m) = map_get k m.
Proof.
  intros Hn. induction m as [|[a b] m IH]; cbn [map_del map_get]; [reflexivity|].
  destruct (str_eqb k' a) eqn:E; cbn [map_get].
  - apply str_eqb_eq in E. subst. apply str_eqb_neq in Hn. rewrite Hn. reflexivity.
  - rewrite IH. reflexivity.
Qed.
Lemma map_get_none k m : map_get k m = None <-> ~ In k (map fst m).
Proof.
  induction m as [|[a b] m IH]; cbn [map_get map fst In]; [split; [intros _ []|reflexivity]|].
  destruct (str_eqb k a) eqn:E.
  - apply str_eqb_eq in E. subst. split; [discriminate|]. intros H. exfalso. apply H. left; reflexivity.
  - apply str_eqb_neq in E. rewrite IH. split; [intros H [X|X]; [congruence|auto]|tauto].
Qed.
Lemma map_get_del k k' m : NoDup (map fst m) -> map_get k (map_del k' m) = if str_eqb k k' then None else map_get k m.
Proof.
  intros H. destruct (str_eqb k k') eqn:E; [|apply map_get_del_ne, str_eqb_neq, E]. apply str_eqb_eq in E. subst k'.
  induction m as [|[a b] m IH]; cbn [map_del map_get]; [reflexivity|]. inversion H; subst.
  destruct (str_eqb k a) eqn:E; cbn [map_get].
  - apply str_eqb_eq in E. subst. apply map_get_none. assumption.
  - rewrite E. auto.
Qed.
Lemma in_map_set x k v m : In x (map fst (map_set k v m)) <-> x = k \/ In x (map fst m).
Proof.
  induction m as [|[a b] m IH]; cbn [map_set map fst In]; [split; [intros [->|[]]; auto|intros [->|[]]; auto]|].
  destruct (str_eqb k a) eqn:E; cbn [map fst In].
  - apply str_eqb_eq in E. subst. split; [intros [H|H]|intros [H|[H|H]]]; auto.
  - rewrite IH. tauto.
Qed.
Lemma nodup_map_set k v m : NoDup (map fst m) -> NoDup (map fst (map_set k v m)).
Proof.
  induction m as [|[a b] m IH]; cbn [map_set map fst]; intros H; [repeat constructor; auto|]. inversion H; subst.
  destruct (str_eqb k a) eqn:E; cbn [map fst]; [constructor; assumption|]. constructor; [|auto].
  rewrite in_map_set. apply str_eqb_neq in E. intros [X|X]; [congruence|contradiction].
Qed.
Lemma in_map_del x k m : In x (map fst (map_del k m)) -> In x (map fst m).
Proof. induction m as [|[a b] m IH]; cbn [map_del map fst In]; [auto|]. destruct (str_eqb k a); cbn [map fst In]; [auto|]. intros [?|?]; auto. Qed.
Lemma nodup_map_del k m : NoDup (map fst m) -> NoDup (map fst (map_del k m)).
Proof.
  induction m as [|[a b] m IH]; cbn [map_del map fst]; intros H; [constructor|]. inversion H; subst.
  destruct (str_eqb k a); cbn [map fst]; [assumption|]. constructor; [|auto]. intros X. apply in_map_del in X. contradiction.
Qed.
Lemma in_dict_set x k d : In x (dict_set k d) <-> x = k \/ In x d.
Proof.
  unfold dict_set. destruct (existsb (str_eqb k) d) eqn:E.
  - apply existsb_exists in E as (y & Hy & Ey). apply str_eqb_eq in Ey. subst. split; [auto|]. intros [->|]; assumption.
  - rewrite in_app_iff. cbn [In]. split; [intros [?|[->|[]]]; auto|intros [->|?]; auto].
Qed.
Lemma existsb_in k d : existsb (str_eqb k) d = true <-> In k d.
Proof.
  rewrite existsb_exists. split; [intros (y & Hy & Ey); apply str_eqb_eq in Ey; subst; exact Hy|]. intros H. exists k. split; [exact H|apply str_eqb_refl].
Qed.
Lemma nodup_dict_set k d : NoDup d -> NoDup (dict_set k d).
Proof.
  intros H. unfold dict_set. destruct (existsb (str_eqb k) d) eqn:E; [exact H|].
  apply NoDup_rev in H. rewrite <- (rev_involutive (d ++ [k])). apply NoDup_rev. rewrite rev_app_distr. cbn. constructor; [|exact H].
  rewrite <- in_rev. intros X. apply existsb_in in X. congruence.
Qed.
Lemma in_dict_del x k d : In x (dict_del k d) <-> x <> k /\ In x d.
Proof.
  unfold dict_del. rewrite filter_In. destruct (str_eqb k x) eqn:E; cbn [negb].
  - apply str_eqb_eq in E. subst. split; [intros [_ ?]; discriminate|intros [? _]; congruence].
  - apply str_eqb_neq in E. split; [intros [? _]|intros [? ?]]; split; auto.
Qed.
Lemma nodup_dict_del k d : NoDup d -> NoDup (dict_del k d).
Proof. apply NoDup_filter. Qed.

(** * dict_ok *)
Lemma dict_ok_set k v m d : dict_ok m d -> dict_ok (map_set k v m) (dict_set k d).
Proof.
  intros (A & B & C). split; [apply nodup_map_set, A|]. split; [apply nodup_dict_set, B|]. intros x. rewrite in_dict_set, map_get_set, C.
  destruct (str_eqb x k) eqn:E; [apply str_eqb_eq in E|apply str_eqb_neq in E]; split; auto; try discriminate. intros [?|?]; [contradiction|assumption].
Qed.
Lemma dict_ok_del k m d : dict_ok m d -> dict_ok (map_del k m) (dict_del k d).
Proof.
  intros (A & B & C). split; [apply nodup_map_del, A|]. split; [apply nodup_dict_del, B|]. intros x. rewrite in_dict_del, map_get_del, C by exact A.
  destruct (str_eqb x k) eqn:E; [apply str_eqb_eq in E|apply str_eqb_neq in E]; tauto.
Qed.
(** [del _map[k]; _map[k] = v] *)
Lemma dict_ok_move k v m d : dict_ok m d -> map_get k m <> None -> dict_ok (map_set k v (map_del k m)) d.
Proof.
  intros (A & B & C) H. split; [apply nodup_map_set, nodup_map_del, A|]. split; [exact B|]. intros x. rewrite C, map_get_set, map_get_del by exact A.
  destruct (str_eqb x k) eqn:E; [apply str_eqb_eq in E; subst; split; auto; discriminate|tauto].
Qed.
Lemma dict_set_in k d : In k d -> dict_set k d = d.
Proof. intros H. unfold dict_set. apply existsb_in in H. rewrite H. reflexivity. Qed.

(** * keyed *)
Lemma keyed_lt tb body k i : keyed tb body k i -> i < List.length body.
Proof. intros (sk & v & H & _). apply nth_error_Some. congruence. Qed.
Lemma keyed_app tb body x k i : keyed tb body k i -> keyed tb (body ++ x) k i.
Proof.
  intros H. pose proof (keyed_lt _ _ _ _ H) as Hl. destruct H as (sk & v & H & K & T). exists sk, v.
  rewrite nth_error_app1 by exact Hl. auto.
Qed.
Lemma keyed_weak tb body k i : keyed tb body k i -> keyed false body k i.
Proof. intros (sk & v & H & K & T). exists sk, v. repeat split; auto; discriminate. Qed.
(** Replacing the item of an entry, keeping key and kind. *)
Lemma keyed_set tb body k i n ck v v' :
  nth_error body n = Some (ck, v) -> (is_table v = true -> is_table v' = true) ->
  keyed tb body k i -> keyed tb (list_set n (ck, v') body) k i.
Proof.
  intros Hn Hv (sk & w & H & K & T). pose proof (proj1 (nth_error_Some body i)) as Hl.
  unfold keyed. rewrite nth_list_set. destruct (Nat.eqb_spec i n) as [->|].
  - rewrite Hn in H. inversion H; subst. exists sk, v'.
    destruct (Nat.ltb_spec n (List.length body)); [auto|]. exfalso. apply nth_error_None in H0. congruence.
  - exists sk, w. auto.
Qed.
Lemma map_ok_set body m n ck v v' :
  nth_error body n = Some (ck, v) -> (is_table v = true -> is_table v' = true) ->
  map_ok body m -> map_ok (list_set n (ck, v') body) m.
Proof.
  intros Hn Hv H k ci Hk. destruct (H k ci Hk) as (A & B & C). split; [exact A|]. split; [exact B|].
  eapply Forall_impl; [|exact C]. intros i. eapply keyed_set; eauto.
Qed.
Lemma complete_set body m n ck v v' : nth_error body n = Some (ck, v) -> complete body m -> complete (list_set n (ck, v') body) m.
Proof.
  intros Hn H i sk w. rewrite nth_list_set. destruct (Nat.eqb_spec i n) as [->|]; [|apply H].
  destruct (n <? _); [|discriminate]. intros X. inversion X; subst. eapply H, Hn.
Qed.
Lemma full_set body m d n ck v v' : nth_error body n = Some (ck, v) -> full body m d -> full (list_set n (ck, v') body) m d.
Proof. intros Hn [A B]. split; [eapply complete_set; eauto|exact B]. Qed.
Lemma nth_app_end {A} (l : list A) x i y : nth_error (l ++ [x]) i = Some y -> nth_error l i = Some y \/ (i = List.length l /\ y = x).
Proof.
  intros H. destruct (Nat.lt_ge_cases i (List.length l)) as [Hl|Hl]; [rewrite nth_error_app1 in H by exact Hl; auto|].
  rewrite nth_error_app2 in H by exact Hl. destruct (i - List.length l) as [|j] eqn:E; cbn in H; [inversion H; right; split; [lia|reflexivity]|].
  destruct j; discriminate.
Qed.
Lemma full_none body m d it : full body m d -> full (body ++ [(None, it)]) m d.
Proof. intros [A B]. split; [|exact B]. intros i sk v H. apply nth_app_end in H as [H|[_ H]]; [eapply A, H|discriminate]. Qed.
Lemma full_one body m d k it : full body m d -> map_get (k_key k) m = None -> full (body ++ [(Some k, it)]) (map_set (k_key k) (One (List.length body)) m) (dict_set (k_key k) d).
Proof.
  intros [A B] N. split; [|apply dict_ok_set, B]. intros i sk v H. rewrite map_get_set. apply nth_app_end in H as [H|[-> H]].
  - destruct (A _ _ _ H) as (ci & E & I). destruct (str_eqb (k_key sk) (k_key k)) eqn:Ek; [apply str_eqb_eq in Ek; congruence|eauto].
  - inversion H; subst. rewrite str_eqb_refl. exists (One (List.length body)). split; [reflexivity|left; reflexivity].
Qed.
Lemma full_more body m d k it ci : full body m d -> map_get (k_key k) m = Some ci ->
  full (body ++ [(Some k, it)]) (map_set (k_key k) (Many (idxs ci ++ [List.length body])) m) (dict_set (k_key k) d).
Proof.
  intros [A B] N. split; [|apply dict_ok_set, B]. intros i sk v H. rewrite map_get_set. apply nth_app_end in H as [H|[-> H]].
  - destruct (A _ _ _ H) as (cj & E & I). destruct (str_eqb (k_key sk) (k_key k)) eqn:Ek; [apply str_eqb_eq in Ek|eauto].
    rewrite Ek, N in E. inversion E; subst. exists (Many (idxs cj ++ [List.length body])). split; [reflexivity|]. cbn [idxs]. apply in_or_app. auto.
  - inversion H; subst. rewrite str_eqb_refl. eexists. split; [reflexivity|]. cbn [idxs]. apply in_or_app. right. left. reflexivity.
Qed.
Lemma full_empty : full [] [] [].
Proof. split; [intros [|i] sk v H; discriminate|]. split; [constructor|]. split; [constructor|]. intros k. cbn. split; [intros []|congruence]. Qed.
Lemma full_single k it : full [(Some k, it)] [(k_key k, One 0)] [k_key k].
Proof. apply (full_one [] [] [] k it full_empty eq_refl). Qed.

(** Two entries with one key are tables: no plain key is bound twice. *)
Lemma no_duplicates c i j sk sk' v v' : consistent c -> i <> j ->
  nth_error (c_body c) i = Some (Some sk, v) -> nth_error (c_body c) j = Some (Some sk', v') -> k_key sk = k_key sk' ->
  is_table v = true /\ is_table v' = true.
Proof.
  intros (M & (F & _)) Hij Hi Hj Hk. destruct (F _ _ _ Hi) as (ci & E & I1). destruct (F _ _ _ Hj) as (cj & E' & I2). rewrite Hk, E' in E. inversion E; subst cj.
  destruct (M _ _ E') as (_ & _ & K). rewrite Forall_forall in K. destruct ci as [n|l]; cbn [idxs] in *.
  - destruct I1 as [<-|[]], I2 as [<-|[]]. congruence.
  - destruct (K _ I1) as (s1 & w1 & N1 & _ & T1). destruct (K _ I2) as (s2 & w2 & N2 & _ & T2). rewrite Hi in N1. rewrite Hj in N2. inversion N1; inversion N2; subst. auto.
Qed.

(** Entries overwritten by Null. *)
Lemma nth_null_fold l : forall body i,
  nth_error (fold_left (fun b x => list_set x (@None skey, INull) b) l body) i
  = if existsb (Nat.eqb i) l then (if Nat.ltb i (List.length body) then Some (@None skey, INull) else None) else nth_error body i.
Proof.
  induction l as [|x l IH]; intros body i; cbn [fold_left existsb]; [reflexivity|].
  rewrite IH, length_list_set, nth_list_set. destruct (Nat.eqb i x), (existsb (Nat.eqb i) l); reflexivity.
Qed.
Lemma Forall_null_fold (P : option skey * item -> Prop) l : forall body,
  Forall P body -> P (None, INull) -> Forall P (fold_left (fun b x => list_set x (@None skey, INull) b) l body).
Proof. induction l as [|x l IH]; intros body Hb Hp; cbn [fold_left]; [exact Hb|]. apply IH; [|exact Hp]. apply Forall_list_set; assumption. Qed.
