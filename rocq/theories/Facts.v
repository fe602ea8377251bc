(** Facts: what a document says, as a list of facts: [(path, Some value)] for a
    value, [(path, None)] for a table with a header of its own.  [append] adds the
    facts of the new item, whatever it does to the tree (C39). *)
From Verif Require Import Base Source Utils Items Container Parser Lemmas Consist Wf OMap ContOps.
From Coq Require Import Permutation ZifyBool ZifyNat ZifyN.
Open Scope nat_scope.

Definition fact : Type := list str * option item.
Definition bare (i : item) : item := set_trivia default_trivia i.
Definition under (p : list str) (l : list fact) : list fact := map (fun f : fact => (p ++ fst f, snd f)) l.
Definition own_fact (m : tmeta) : list fact := match tm_super m with Some true => [] | _ => [([], None)] end.
Fixpoint facts_item (i : item) : list fact :=
  match i with
  | ITable c m => own_fact m ++ facts c
  | IAoT _ _ _ _ => []
  | IWs _ _ | IComment _ | INull => [([], Some INull)]
  | _ => [([], Some (bare i))]
  end
with facts (c : container) : list fact :=
  match c with
  | Cont body _ _ _ _ =>
      flat_map (fun kv : option skey * item => match kv with (Some k, v) => under [k_key k] (facts_item v) | (None, _) => [] end) body
  end.
Definition efacts (kv : option skey * item) : list fact := match kv with (Some k, v) => under [k_key k] (facts_item v) | (None, _) => [] end.
Lemma facts_eq body m p tks d : facts (Cont body m p tks d) = flat_map efacts body. Proof. reflexivity. Qed.
Lemma facts_body c : facts c = flat_map efacts (c_body c). Proof. destruct c. reflexivity. Qed.

(** No arrays of tables, every table knows whether it has a header, indices fit. *)
Inductive tame : item -> Prop :=
  | tame_table c m : tm_aot m = false -> tm_super m <> None /\ (tm_super m = Some true -> facts c <> []) -> tamec c -> tame (ITable c m)
  | tame_other i : is_table_or_aot i = false -> tame i
with tamec : container -> Prop :=
  | tame_cont c : Forall (fun kv => tame (snd kv)) (c_body c) -> consistent c -> tamec c.
Lemma tame_inv c m : tame (ITable c m) -> tm_aot m = false /\ (tm_super m <> None /\ (tm_super m = Some true -> facts c <> [])) /\ tamec c.
Proof. intros H. inversion H; subst; [auto|discriminate]. Qed.
Lemma tamec_body c : tamec c -> Forall (fun kv => tame (snd kv)) (c_body c). Proof. intros H. inversion H. assumption. Qed.
Lemma tamec_cons c : tamec c -> consistent c. Proof. intros H. inversion H. assumption. Qed.
Lemma tamec_in c i kv : tamec c -> nth_error (c_body c) i = Some kv -> tame (snd kv).
Proof. intros H E. apply tamec_body in H. rewrite Forall_forall in H. apply H. eapply nth_error_In, E. Qed.
Lemma tame_noaot i : tame i -> is_aot i = false. Proof. intros H. inversion H; subst; [reflexivity|]. destruct i; try reflexivity; discriminate. Qed.
Lemma consistent_empty p : consistent (empty_cont p). Proof. split; [intros k ci; discriminate|]. apply full_empty. Qed.
Lemma tamec_empty p : tamec (empty_cont p). Proof. constructor; [constructor|apply consistent_empty]. Qed.

(** * Items whose facts are the same *)
Lemma bare_set t i : bare (set_trivia t i) = bare i. Proof. destruct i; reflexivity. Qed.
Lemma facts_set t i : facts_item (set_trivia t i) = facts_item i.
Proof. destruct i; try reflexivity. Qed.
Lemma tame_set t i : tame i -> tame (set_trivia t i).
Proof. intros H. inversion H; subst; [constructor; assumption|]. apply tame_other. destruct i; try discriminate; reflexivity. Qed.
Lemma table_set t i : is_table (set_trivia t i) = is_table i. Proof. destruct i; reflexivity. Qed.
Lemma facts_name k i : facts_item (set_name k i) = facts_item i.
Proof. destruct i as [| | | | | |c [t a su [n|] di]|l [n|] p t]; reflexivity. Qed.
Lemma tame_name k i : tame i -> tame (set_name k i).
Proof.
  intros H. inversion H; subst.
  - destruct m as [t a su [n|] di]; [exact H|]. constructor; assumption.
  - destruct i; try discriminate; exact H.
Qed.
Lemma table_name k i : is_table (set_name k i) = is_table i /\ is_table_or_aot (set_name k i) = is_table_or_aot i.
Proof. destruct i as [| | | | | |c [t a su [n|] di]|l [n|] p t]; auto. Qed.
Lemma flat_map_map {A B C} (f : B -> list C) (g : A -> B) l : flat_map f (map g l) = flat_map (fun x => f (g x)) l.
Proof. induction l as [|x l IH]; [reflexivity|]. cbn. rewrite IH. reflexivity. Qed.
Definition inval_entry (m : list (str * cidx)) (kv : option skey * item) : option skey * item :=
  match kv with
  | (k, v) => match k with
              | Some k' => match map_get (k_key k') m with Some (One _) => (k, inval_item v) | _ => (k, v) end
              | None => (k, v)
              end
  end.
Lemma inval_cont_eq body m p tks d : inval_cont (Cont body m p tks d) = Cont (map (inval_entry m) body) m p tks d. Proof. reflexivity. Qed.
Lemma inval_kind i : is_table (inval_item i) = is_table i /\ is_table_or_aot (inval_item i) = is_table_or_aot i. Proof. destruct i; auto. Qed.
Lemma inval_entry_spec m kv : fst (inval_entry m kv) = fst kv /\ is_table (snd (inval_entry m kv)) = is_table (snd kv) /\ (snd (inval_entry m kv) = snd kv \/ snd (inval_entry m kv) = inval_item (snd kv)).
Proof. destruct kv as [[k|] v]; unfold inval_entry; cbn [fst snd]; [|auto]. destruct (map_get _ _) as [[]|]; cbn [fst snd]; rewrite ?(proj1 (inval_kind v)); auto. Qed.
Lemma consistent_map f body m p tks d : (forall kv : option skey * item, fst (f kv) = fst kv /\ is_table (snd (f kv)) = is_table (snd kv)) ->
  consistent (Cont body m p tks d) -> consistent (Cont (map f body) m p tks d).
Proof.
  intros Hf [M [F D]]. cbn [c_body c_map c_dict] in *. split; [|split; [|exact D]]; cbn [c_body c_map c_dict].
  - intros k ci Hk. destruct (M k ci Hk) as (A & B & C). split; [exact A|]. split; [exact B|]. eapply Forall_impl; [|exact C]. intros i (sk & v & E & K & T).
    exists sk, (snd (f (Some sk, v))). rewrite nth_error_map, E. cbn [option_map]. destruct (Hf (Some sk, v)) as (F1 & F2). cbn [fst snd] in *. rewrite F2.
    split; [|auto]. f_equal. rewrite (surjective_pairing (f (Some sk, v))) at 1. rewrite F1. reflexivity.
  - intros i sk v E. rewrite nth_error_map in E. destruct (nth_error body i) as [kv|] eqn:En; [|discriminate]. cbn [option_map] in E. inversion E as [E']. destruct (Hf kv) as (F1 & _). rewrite E' in F1. cbn [fst] in F1.
    destruct kv as [k0 v0]. cbn [fst] in F1. subst k0. eapply F, En.
Qed.
Lemma efacts_same (kv kv' : option skey * item) : fst kv = fst kv' -> facts_item (snd kv) = facts_item (snd kv') -> efacts kv = efacts kv'.
Proof. destruct kv as [k v], kv' as [k' v']. cbn [fst snd]. intros -> E. unfold efacts. destruct k'; [rewrite E|]; reflexivity. Qed.
Lemma inval_facts : (forall i, tame i -> facts_item (inval_item i) = facts_item i /\ tame (inval_item i)) /\ (forall c, tamec c -> facts (inval_cont c) = facts c /\ tamec (inval_cont c)).
Proof.
  apply item_cont_ind; try (intros; split; [reflexivity|assumption]).
  - intros c m IH H. apply tame_inv in H as (A & B & C). destruct (IH C) as [E T]. cbn [inval_item facts_item]. rewrite E. split; [destruct m; reflexivity|]. constructor; [assumption|rewrite E; assumption|assumption].
  - intros l n p t IH H. apply tame_noaot in H. discriminate.
  - intros body m p tks d IH H. rewrite inval_cont_eq. apply tamec_body in H as Hb. cbn [c_body] in Hb. split.
    + rewrite !facts_eq, flat_map_map. clear H. induction body as [|kv body IHb]; [reflexivity|]. cbn [flat_map]. inversion Hb; inversion IH; subst. rewrite IHb by assumption. f_equal.
      destruct (inval_entry_spec m kv) as (E1 & _ & E2). apply efacts_same; [exact E1|]. destruct E2 as [->| ->]; [reflexivity|]. match goal with X : _ -> _ /\ _ |- _ => apply X; assumption end.
    + constructor.
      * cbn [c_body]. rewrite Forall_forall in *. intros x Hx. apply in_map_iff in Hx as (kv & <- & Hin). destruct (inval_entry_spec m kv) as (_ & _ & [->| ->]); [apply Hb, Hin|]. apply (IH _ Hin), Hb, Hin.
      * apply consistent_map; [|apply tamec_cons in H; exact H]. intros kv. destruct (inval_entry_spec m kv) as (E1 & E2 & _). auto.
Qed.
Lemma pre_facts c k i : tame i -> facts_item (pre_append c k i) = facts_item i /\ tame (pre_append c k i) /\ is_table (pre_append c k i) = is_table i
  /\ is_table_or_aot (pre_append c k i) = is_table_or_aot i.
Proof.
  intros H. destruct c as [body m p tks d]. unfold pre_append. destruct i as [| | | | | |c0 m0|]; auto.
  - set (i1 := if p then _ else _). assert (G : facts_item i1 = facts_item (ITable c0 m0) /\ tame i1 /\ is_table i1 = true).
    { unfold i1. destruct p; [auto|]. destruct (proj1 inval_facts _ H). auto. }
    clearbody i1. destruct G as (G1 & G2 & G3). destruct (_ && _)%bool; rewrite ?facts_set, ?table_set; (split; [exact G1|]); (split; [try apply tame_set; exact G2|]); (split; [exact G3|]); destruct i1; try discriminate G3; reflexivity.
  - apply tame_noaot in H. discriminate.
Qed.

(** * Lists of entries *)
Lemma flat_map_app {A B} (f : A -> list B) l l' : flat_map f (l ++ l') = flat_map f l ++ flat_map f l'.
Proof. induction l as [|x l IH]; [reflexivity|]. cbn. rewrite IH, app_assoc. reflexivity. Qed.
Lemma list_set_split {A} n (x y : A) l : nth_error l n = Some y -> exists a b, l = a ++ y :: b /\ list_set n x l = a ++ x :: b.
Proof.
  revert n. induction l as [|z l IH]; intros [|n] H; try discriminate; cbn in *.
  - injection H as ->. exists [], l. auto.
  - destruct (IH _ H) as (a & b & -> & E). exists (z :: a), b. rewrite E. auto.
Qed.
Lemma efacts_set body n ck v v' : nth_error body n = Some (ck, v) -> facts_item v' = facts_item v -> flat_map efacts (list_set n (ck, v') body) = flat_map efacts body.
Proof.
  intros E H. destruct (list_set_split n (ck, v') _ _ E) as (a & b & -> & ->). rewrite !flat_map_app. cbn [flat_map]. rewrite (efacts_same (ck, v') (ck, v)); [reflexivity|reflexivity|exact H].
Qed.
Lemma under_app p l l' : under p (l ++ l') = under p l ++ under p l'. Proof. apply map_app. Qed.
Lemma under_perm p l l' : Permutation l l' -> Permutation (under p l) (under p l'). Proof. apply Permutation_map. Qed.
Lemma under_under p q l : under p (under q l) = under (p ++ q) l.
Proof. unfold under. rewrite map_map. apply map_ext. intros [a b]. cbn. rewrite app_assoc. reflexivity. Qed.
Lemma efacts_grow body n k v v' extra : nth_error body n = Some (Some k, v) -> Permutation (facts_item v') (facts_item v ++ extra) ->
  Permutation (flat_map efacts (list_set n (Some k, v') body)) (flat_map efacts body ++ under [k_key k] extra).
Proof.
  intros E H. destruct (list_set_split n (Some k, v') _ _ E) as (a & b & -> & ->). rewrite !flat_map_app. cbn [flat_map efacts]. rewrite <- !app_assoc. apply Permutation_app_head.
  apply (under_perm [k_key k]) in H. rewrite H, under_app, <- app_assoc. apply Permutation_app_head. apply Permutation_app_comm.
Qed.
Lemma efacts_insert idx kv body : Permutation (flat_map efacts (list_insert idx kv body)) (flat_map efacts body ++ efacts kv).
Proof.
  unfold list_insert. rewrite <- (firstn_skipn idx body) at 3. rewrite !flat_map_app. cbn [flat_map]. rewrite <- app_assoc. apply Permutation_app_head. apply Permutation_app_comm.
Qed.
Lemma consistent_set body m p tks d n ck v v' : nth_error body n = Some (ck, v) -> (is_table v = true -> is_table v' = true) -> consistent (Cont body m p tks d) -> consistent (Cont (list_set n (ck, v') body) m p tks d).
Proof. intros E H [M F]. split; cbn [c_body c_map c_dict] in *; [eapply map_ok_set; eassumption|eapply full_set; eassumption]. Qed.
Lemma tamec_set body m p tks d n ck v v' : nth_error body n = Some (ck, v) -> (is_table v = true -> is_table v' = true) -> tame v' -> tamec (Cont body m p tks d) -> tamec (Cont (list_set n (ck, v') body) m p tks d).
Proof.
  intros E H Hv T. constructor; [|eapply consistent_set; [exact E|exact H|apply tamec_cons, T]]. cbn [c_body]. apply Forall_list_set; [apply tamec_body in T; exact T|exact Hv].
Qed.
(** Adding an entry, at the end or in between. *)
Definition idx_ok (ci : cidx) (body : list (option skey * item)) : Prop := match ci with One x => exists ck v, nth_error body x = Some (ck, v) /\ is_table v = true | Many _ => True end.
Lemma keyed_tables body m k ci : map_ok body m -> map_get k m = Some ci -> idx_ok ci body -> Forall (keyed true body k) (idxs ci).
Proof.
  intros M E H. destruct (M _ _ E) as (_ & _ & C). destruct ci as [x|l]; [|exact C]. cbn [idxs] in *. apply Forall_inv in C. constructor; [|constructor].
  destruct C as (sk & v & E1 & K & _). destruct H as (ck & v' & E2 & T). rewrite E1 in E2. injection E2 as _ ->. exists sk, v'. auto.
Qed.
Lemma nodup_snoc {A} (l : list A) x : NoDup l -> ~ In x l -> NoDup (l ++ [x]).
Proof. intros H N. apply NoDup_rev in H. rewrite <- (rev_involutive (l ++ [x])). apply NoDup_rev. rewrite rev_app_distr. cbn. constructor; [|exact H]. rewrite <- in_rev. exact N. Qed.
Lemma consistent_more body m p tks tks' d k it ci : consistent (Cont body m p tks d) -> map_get (k_key k) m = Some ci -> idx_ok ci body -> is_table it = true ->
  consistent (Cont (body ++ [(Some k, it)]) (map_set (k_key k) (Many (idxs ci ++ [List.length body])) m) p tks' (dict_set (k_key k) d)).
Proof.
  intros [M F] E H T. cbn [c_body c_map c_dict] in *. split; cbn [c_body c_map c_dict]; [|apply full_more; assumption]. pose proof (keyed_tables _ _ _ _ M E H) as K.
  intros k2 ci2. rewrite map_get_set. destruct (str_eqb k2 (k_key k)) eqn:E2.
  - intros X; inversion X; subst. apply str_eqb_eq in E2; subst k2. cbn [idxs]. destruct (M _ _ E) as (A1 & A2 & A3). split; [cbn [roomy]; rewrite app_length; pose proof (roomy_ne _ A1) as A1'; destruct (idxs ci); [congruence|cbn; lia]|]. split.
    + apply nodup_snoc; [exact A2|]. intros Hin. rewrite Forall_forall in A3. apply A3, keyed_lt in Hin. lia.
    + apply Forall_app; split; [eapply Forall_impl; [|exact K]; intros; apply keyed_app; assumption|]. constructor; [|constructor]. exists k, it. rewrite nth_error_app2, Nat.sub_diag by lia. cbn. auto.
  - intros X. destruct (M _ _ X) as (A1 & A2 & A3). split; [exact A1|]. split; [exact A2|]. eapply Forall_impl; [|exact A3]. intros; apply keyed_app; assumption.
Qed.
Lemma consistent_insert_more idx body m p tks tks' d k it ci : idx <= List.length body -> consistent (Cont body m p tks d) -> map_get (k_key k) m = Some ci -> idx_ok ci body -> is_table it = true ->
  consistent (Cont (list_insert idx (Some k, it) body) (map_set (k_key k) (Many (map (bump idx) (idxs ci) ++ [idx])) (map (fun kv : str * cidx => (fst kv, bump_idx idx (snd kv))) m)) p tks' (dict_set (k_key k) d)).
Proof.
  intros Hi [M F] E H T. cbn [c_body c_map c_dict] in *. pose proof (keyed_tables _ _ _ _ M E H) as K.
  assert (ND : forall l, NoDup l -> NoDup (map (bump idx) l)).
  { intros l B. induction B as [|x l Hx Hl IH]; [constructor|]. cbn [map]. constructor; [|exact IH]. rewrite in_map_iff. intros (y & Y & Hy). apply bump_inj in Y. subst. contradiction. }
  assert (KI : forall b k0 i, keyed b body k0 i -> keyed b (list_insert idx (Some k, it) body) k0 (bump idx i)).
  { intros b k0 i (sk & v & E1 & K1 & T1). exists sk, v. rewrite nth_insert_old by exact Hi. auto. }
  split; cbn [c_body c_map c_dict].
  - intros k2 ci2. rewrite map_get_set. destruct (str_eqb k2 (k_key k)) eqn:E2.
    + intros X; inversion X; subst. apply str_eqb_eq in E2; subst k2. cbn [idxs]. destruct (M _ _ E) as (A1 & A2 & A3). split; [cbn [roomy]; rewrite app_length, map_length; pose proof (roomy_ne _ A1) as A1'; destruct (idxs ci); [congruence|cbn; lia]|]. split.
      * apply nodup_snoc; [apply ND, A2|]. intros Hin. apply in_map_iff in Hin as (y & Y & _). unfold bump in Y. destruct (Nat.leb_spec idx y); lia.
      * apply Forall_app; split.
        -- rewrite Forall_forall in *. intros j Hj. apply in_map_iff in Hj as (i & <- & Hin). apply KI, K, Hin.
        -- constructor; [|constructor]. exists k, it. rewrite nth_insert_new by exact Hi. auto.
    + rewrite map_get_bump. destruct (map_get k2 m) as [cj|] eqn:Ej; [|discriminate]. cbn [option_map]. intros X; inversion X; subst. destruct (M _ _ Ej) as (A & B & C).
      rewrite idxs_bump. split; [destruct cj; cbn [bump_idx roomy] in *; [exact I|rewrite map_length; exact A]|]. split; [apply ND, B|]. rewrite Forall_forall in *. intros j Hj. apply in_map_iff in Hj as (i & <- & Hin). specialize (C _ Hin). apply KI. destruct cj; exact C.
  - destruct F as [A B]. split.
    + intros j sk v E1. rewrite map_get_set, map_get_bump. apply nth_insert_inv in E1 as [(-> & E1)|(i & -> & E1)]; [| |exact Hi].
      * inversion E1; subst. rewrite str_eqb_refl. eexists. split; [reflexivity|]. cbn [idxs]. apply in_app_iff. right; left; reflexivity.
      * destruct (A _ _ _ E1) as (cj & E3 & I1). destruct (str_eqb (k_key sk) (k_key k)) eqn:Ek.
        -- apply str_eqb_eq in Ek. rewrite Ek, E in E3. injection E3 as <-. eexists. split; [reflexivity|]. cbn [idxs]. apply in_app_iff. left. apply in_map, I1.
        -- rewrite E3. exists (bump_idx idx cj). split; [reflexivity|]. rewrite idxs_bump. apply in_map, I1.
    + apply dict_ok_set. destruct B as (B1 & B2 & B3). split; [rewrite map_map; exact B1|]. split; [exact B2|]. intros x. rewrite B3, map_get_bump. destruct (map_get x m); cbn; split; congruence.
Qed.

(** * The operations *)
Definition good {A} (P : A -> Prop) (r : res A) : Prop := match r with Ok a => P a | Err (NonExistentKeyE _) => False | Err _ => True end.
Lemma good_bind {A B} (P : A -> Prop) (Q : B -> Prop) r (f : A -> res B) : good P r -> (forall a, P a -> good Q (f a)) -> good Q (rbind r f).
Proof. intros H Hf. destruct r as [a|e]; cbn [rbind]; [apply Hf, H|]. destruct e; exact H. Qed.
Lemma good_impl {A} (P Q : A -> Prop) r : (forall a, P a -> Q a) -> good P r -> good Q r.
Proof. intros H G. destruct r; [apply H, G|exact G]. Qed.
Definition added (c : container) (extra : list fact) (c' : container) : Prop := Permutation (facts c') (facts c ++ extra) /\ tamec c'.
Definition may_add (m : list (str * cidx)) (body : list (option skey * item)) (k : skey) (it : item) : Prop :=
  match map_get (k_key k) m with None => True | Some ci => idx_ok ci body /\ is_table it = true end.
Lemma raw_f c k it : tamec c -> tame it -> match k with Some k' => map_get (k_key k') (c_map c) = None \/ is_table it = true | None => True end ->
  good (fun c' => added c (efacts (k, it)) c' /\ has (option_map k_key k) c') (raw_append c k it).
Proof.
  intros Hc Hi Hk. destruct c as [body m p tks d]. pose proof (tamec_body _ Hc) as Hb. pose proof (tamec_cons _ Hc) as Cc. cbn [c_body c_map] in *. unfold raw_append.
  assert (F : forall m' t' d', consistent (Cont (body ++ [(k, it)]) m' p t' d') -> added (Cont body m p tks d) (efacts (k, it)) (Cont (body ++ [(k, it)]) m' p t' d')).
  { intros m' t' d' C'. split; [rewrite !facts_eq, flat_map_app; cbn [flat_map]; rewrite app_nil_r; reflexivity|]. constructor; [|exact C']. apply Forall_app. split; [exact Hb|]. constructor; [exact Hi|constructor]. }
  destruct k as [k|].
  - destruct (map_get (k_key k) m) as [ci|] eqn:Em.
    + destruct Hk as [Hk|Hk]; [discriminate|]. change (match ci with One x => [x] | Many l => l end) with (idxs ci). destruct (nth_error body (last (idxs ci) 0)) as [[ck cur]|] eqn:En; [|exact I].
      destruct (is_table cur) eqn:Et; [|exact I]. cbn [rbind good]. split.
      * apply F. eapply consistent_more; [exact Cc|exact Em| |exact Hk]. destruct ci as [x|l]; [|exact I]. cbn [idxs last] in En. exists ck, cur. auto.
      * cbn [has option_map c_map]. rewrite map_get_set, str_eqb_refl. eauto.
    + cbn [rbind good]. split; [|cbn [has option_map c_map]; rewrite map_get_set, str_eqb_refl; eauto]. apply F. destruct Cc as [M Fu]. cbn [c_body c_map c_dict] in M, Fu. split; cbn [c_body c_map c_dict]; [apply map_ok_one|apply full_one]; assumption.
  - cbn [good]. split; [|exact I]. apply F. destruct Cc as [M Fu]. cbn [c_body c_map c_dict] in M, Fu. split; cbn [c_body c_map c_dict]; [|apply full_none, Fu].
    intros k2 ci2 X. destruct (M _ _ X) as (A1 & A2 & A3). split; [exact A1|]. split; [exact A2|]. eapply Forall_impl; [|exact A3]. intros; apply keyed_app; assumption.
Qed.
Lemma nl_facts i : facts_item (add_nl_trail i) = facts_item i /\ is_table (add_nl_trail i) = is_table i. Proof. split; [apply facts_set|apply table_set]. Qed.
Lemma set_nl body m p tks d n pk prev : nth_error body n = Some (pk, prev) -> tamec (Cont body m p tks d) ->
  tamec (Cont (list_set n (pk, add_nl_trail prev) body) m p tks d) /\ facts (Cont (list_set n (pk, add_nl_trail prev) body) m p tks d) = facts (Cont body m p tks d).
Proof.
  intros E H. split.
  - eapply tamec_set; [exact E| |apply tame_set; exact (tamec_in (Cont body m p tks d) _ _ H E)|exact H]. destruct (nl_facts prev) as [_ ->]. auto.
  - rewrite !facts_eq. eapply efacts_set; [exact E|apply nl_facts].
Qed.
Lemma insert_f c idx k it : tamec c -> tame it -> may_add (c_map c) (c_body c) k it -> good (fun c' => added c (efacts (Some k, it)) c' /\ has (Some (k_key k)) c') (insert_at c idx k it).
Proof.
  intros Hc Hi Hk. destruct c as [body m p tks d]. cbn [c_map c_body] in Hk. unfold insert_at. destruct (_ || _)%bool eqn:Eb; [exact I|]. set (body1 := match idx with O => body | S i => _ end).
  assert (B1 : tamec (Cont body1 m p tks d) /\ facts (Cont body1 m p tks d) = facts (Cont body m p tks d) /\ may_add m body1 k it /\ List.length body1 = List.length body).
  { unfold body1. destruct idx as [|i]; [auto|]. destruct (nth_error body i) as [[pk prev]|] eqn:E; [|auto]. match goal with |- context [if ?b then body else _] => destruct b end; [auto|]. destruct (set_nl _ m p tks d _ _ _ E Hc) as [T1 T2]. split; [exact T1|]. split; [exact T2|]. split; [|apply length_list_set].
    revert Hk. unfold may_add. destruct (map_get (k_key k) m) as [ci|]; [|auto]. intros [H1 H2]. split; [|exact H2]. destruct ci as [x|l]; [|exact I]. destruct H1 as (ck & v & E1 & T). cbn [idx_ok]. rewrite nth_list_set.
    destruct (Nat.eqb_spec x i) as [->|]; [|eauto]. assert (i < List.length body) by (apply nth_error_Some; congruence). destruct (Nat.ltb_spec i (List.length body)); [|lia]. exists pk, (add_nl_trail prev). split; [reflexivity|].
    rewrite E in E1. injection E1 as -> ->. rewrite (proj2 (nl_facts v)). exact T. }
  clearbody body1. destruct B1 as (T1 & T2 & T3 & T4). assert (Hle : idx <= List.length body1) by (apply orb_false_iff in Eb as [Eb _]; apply Nat.ltb_ge in Eb; lia).
  assert (F : forall m' d', consistent (Cont (list_insert idx (Some k, it) body1) m' p tks d') -> added (Cont body m p tks d) (efacts (Some k, it)) (Cont (list_insert idx (Some k, it) body1) m' p tks d')).
  { intros m' d' C'. split; [rewrite <- T2; rewrite !facts_eq; apply efacts_insert|]. constructor; [|exact C']. cbn [c_body]. apply Forall_insert; [apply tamec_body in T1; exact T1|exact Hi]. }
  pose proof (tamec_cons _ T1) as Cc. rewrite map_get_bump. unfold may_add in T3. destruct (map_get (k_key k) m) as [ci|] eqn:Em; cbn [option_map good].
  - destruct T3 as [T3 T5]. split; [|destruct ci; cbn [bump_idx has c_map]; rewrite map_get_set, str_eqb_refl; eauto].
    pose proof (consistent_insert_more idx _ _ _ _ tks _ _ it _ Hle Cc Em T3 T5) as X. destruct ci; cbn [bump_idx idxs map app] in *; apply F; exact X.
  - split; [|cbn [has c_map]; rewrite map_get_set, str_eqb_refl; eauto]. apply F. destruct Cc as [M Fu]. cbn [c_body c_map c_dict] in M, Fu. split; cbn [c_body c_map c_dict]; [apply map_ok_insert|apply full_insert]; assumption.
Qed.
Lemma end_f c k it : tamec c -> tame it -> match k with Some k' => may_add (c_map c) (c_body c) k' it | None => True end ->
  good (fun c' => added c (efacts (k, it)) c' /\ has (option_map k_key k) c') (append_end c k it).
Proof.
  intros Hc Hi Hk. destruct c as [body m p tks d]. cbn [c_map c_body] in Hk. unfold append_end. destruct k as [k|]; [|apply raw_f; auto].
  assert (Hk' : map_get (k_key k) m = None \/ is_table it = true) by (unfold may_add in Hk; destruct (map_get _ _); [right; apply Hk|left; reflexivity]).
  destruct (_ && _ && _)%bool; [|apply raw_f; auto]. cbv zeta. destruct (Nat.ltb _ _); [apply (insert_f (Cont body m p tks d)); auto|].
  destruct (nth_error body _) as [[pk prev]|] eqn:E; [|apply raw_f; auto]. destruct (_ || _)%bool; [apply raw_f; auto|]. destruct (set_nl _ m p tks d _ _ _ E Hc) as [T1 T2].
  eapply good_impl; [|apply raw_f; [exact T1|exact Hi|exact Hk']]. intros c' [[A B] H]. split; [|exact H]. split; [rewrite <- T2; exact A|exact B].
Qed.

Definition kfacts (k : option key) (it : item) : list fact :=
  match k with None => [] | Some k' => under (map k_key (key_parts k')) (facts_item it) end.
Lemma singleton_f k it : tame it -> tamec (singleton k it) /\ facts (singleton k it) = under [k_key k] (facts_item it).
Proof.
  intros H. split; [|unfold singleton; rewrite facts_eq; cbn [flat_map efacts]; apply app_nil_r]. constructor; [constructor; [exact H|constructor]|]. split; cbn [c_body c_map c_dict singleton]; [|apply full_single].
  intros k2 ci. cbn [map_get]. destruct (str_eqb k2 (k_key k)) eqn:E; [|discriminate]. intros X; inversion X; subst. apply str_eqb_eq in E; subst k2. cbn [idxs]. split; [exact I|]. split; [repeat constructor; simpl; tauto|].
  constructor; [|constructor]. exists k, it. repeat split; auto; discriminate.
Qed.
Lemma super_tame c n : tamec c -> facts c <> [] -> tame (ITable c (super_meta n)). Proof. intros H K. constructor; [reflexivity|split; [discriminate|intros _; exact K]|exact H]. Qed.
Lemma under_ne p l : l <> [] -> under p l <> []. Proof. destruct l; [congruence|discriminate]. Qed.
Lemma other_facts i : is_table_or_aot i = false -> facts_item i <> []. Proof. destruct i; discriminate. Qed.
Lemma dotted_f sep it : tame it -> facts_item it <> [] -> forall parts, parts <> [] -> tamec (dotted_table parts sep it) /\ facts (dotted_table parts sep it) = under (map k_key parts) (facts_item it).
Proof.
  intros H Hf. induction parts as [|x parts IH]; [congruence|]. intros _. destruct parts as [|y parts].
  - cbn [dotted_table]. destruct (singleton_f (set_sep sep x) it H) as [A B]. split; [exact A|]. rewrite B. destruct x; reflexivity.
  - destruct IH as [A B]; [discriminate|]. change (dotted_table (x :: y :: parts) sep it) with (singleton (set_dotted x) (ITable (dotted_table (y :: parts) sep it) (super_meta (Some (k_key x))))).
    destruct (singleton_f (set_dotted x) _ (super_tame _ (Some (k_key x)) A ltac:(rewrite B; apply under_ne, Hf))) as [C D]. split; [exact C|]. rewrite D. cbn [facts_item]. cbn [own_fact super_meta tm_super app]. rewrite B, under_under. destruct x; reflexivity.
Qed.

Definition part_facts (body : list (option skey * item)) (i : nat) : list fact :=
  match nth_error body i with Some (_, ITable tc _) => facts tc | _ => [] end.
Definition A_f n := forall s prox c k it v, tamec c -> tame it -> key_fine k -> good (fun c' => added c (kfacts k it) c' /\ has (first_key k) c') (append n prox s c k it v).
Definition C_f n := forall c k, tamec c -> good (fun b => b = true <-> has (Some k) c) (contains n c k).
Definition P_f n := forall c l, tamec c -> in_range c l -> good (fun ic => Permutation (facts ic) (flat_map (part_facts (c_body c)) l) /\ tamec ic) (proxy n c l).
Definition V_f n := forall c k, tamec c -> good (fun _ => True) (validate_key n c k).
Definition T_f n := forall s prox c tm k it, tamec c -> tame it -> key_fine k -> good (fun r => added c (kfacts k it) (fst r) /\ snd r = tm) (table_append n prox s c tm k it).
Lemma range_f c k l : tamec c -> map_get k (c_map c) = Some (Many l) -> in_range c l.
Proof. intros H Hm. destruct (tamec_cons _ H) as [M _]. destruct (M _ _ Hm) as (_ & _ & A). unfold in_range. eapply Forall_impl; [|exact A]. intros i Hi. eapply keyed_lt; exact Hi. Qed.
Lemma good_fold {A B} (I : list A -> B -> Prop) (f : B -> A -> res B) l : forall done b,
  I done b -> (forall done x b, In x l -> I done b -> good (I (done ++ [x])) (f b x)) -> good (I (done ++ l)) (fold_res f l b).
Proof.
  induction l as [|x l IH]; intros done b Hb Hf; cbn [fold_res]; [rewrite app_nil_r; exact Hb|].
  pose proof (Hf done x b (or_introl eq_refl) Hb) as H. destruct (f b x) as [b'|e]; [|exact H]. cbn [good] in H. replace (done ++ x :: l) with ((done ++ [x]) ++ l) by (rewrite <- app_assoc; reflexivity).
  apply IH; [exact H|]. intros d y b0 Hy. apply Hf. right; exact Hy.
Qed.
Lemma item_insert_facts ind v : facts_item (item_indent_insert ind v) = facts_item v /\ (tame v -> tame (item_indent_insert ind v)) /\ is_table (item_indent_insert ind v) = is_table v.
Proof. unfold item_indent_insert. destruct (is_wsitem v); [auto|]. split; [apply facts_set|]. split; [apply tame_set|apply table_set]. Qed.
Lemma step_Tf n : A_f n -> P_f n -> T_f (S n).
Proof.
  intros HA HP s prox c tm k it Hc Hi Hk. cbn [table_append]. eapply good_bind; [apply HA; eassumption|]. intros c' [Ha Hh]. unfold first_key in Hh.
  assert (Ins : forall ind i bk v0, nth_error (c_body c') i = Some (bk, v0) -> added c (kfacts k it) (set_body (list_set i (bk, item_indent_insert ind v0) (c_body c')) c')).
  { intros ind i bk v0 E. destruct c' as [body m p tks d]. cbn [set_body c_body] in *. destruct (item_insert_facts ind v0) as (F1 & F2 & F3). destruct Ha as [P1 T1]. split.
    - rewrite !facts_eq, (efacts_set _ _ _ v0 _ E F1). exact P1.
    - eapply tamec_set; [exact E|rewrite F3; auto| |exact T1]. apply F2. exact (tamec_in (Cont body m p tks d) _ _ T1 E). }
  destruct (option_map _ k) as [ks|]; cbn [has] in Hh.
  - destruct Hh as [ci Hci]. rewrite Hci. destruct ci as [i|l].
    + destruct (first_spaces _) as [ind|]; [|split; [exact Ha|reflexivity]]. destruct (negb _); [exact I|]. destruct s; [exact I|]. destruct (nth_error (c_body c') i) as [[bk v0]|] eqn:E; [|exact I].
      pose proof (Ins ind _ _ _ E) as G. destruct v0 as [| | |[]| | | |]; try exact I; (split; [exact G|reflexivity]).
    + eapply good_bind; [apply HP; [apply Ha|eapply range_f; [apply Ha|exact Hci]]|]. intros _ _. destruct (first_spaces _); [exact I|]. split; [exact Ha|reflexivity].
  - destruct (first_spaces _) as [ind|]; [|split; [exact Ha|reflexivity]]. destruct (negb _); [exact I|]. destruct s; [exact I|]. cbv zeta. destruct (nth_error _ _) as [[bk v0]|] eqn:E; [|split; [exact Ha|reflexivity]].
    split; [|reflexivity]. apply Ins, E.
Qed.
Lemma kfacts_single k v : kfacts (option_map KSingle k) v = efacts (k, v). Proof. destruct k; reflexivity. Qed.
Lemma step_Pf n : A_f n -> V_f n -> P_f (S n).
Proof.
  intros HA HV c l Hc Hl. cbn [proxy]. eapply good_bind.
  - refine (good_fold (fun done ic => Permutation (facts ic) (flat_map (part_facts (c_body c)) done) /\ tamec ic) _ _ [] _ _ _); [split; [apply perm_nil|apply tamec_empty]|].
    intros done i ic Hin [P1 T1]. rewrite flat_map_app. cbn [flat_map]. rewrite app_nil_r. unfold part_facts at 2. destruct (nth_error (c_body c) i) as [[k v]|] eqn:E; [|exact I].
    pose proof (tamec_in _ _ _ Hc E) as Tv. cbn [snd] in Tv. destruct v as [| | | | | |tc tm|]; try (split; [rewrite app_nil_r; exact P1|exact T1]).
    apply tame_inv in Tv as (_ & _ & Tv). rewrite (facts_body tc).
    refine (good_impl _ _ _ _ (good_fold (fun done0 ic0 => Permutation (facts ic0) (flat_map (part_facts (c_body c)) done ++ flat_map efacts done0) /\ tamec ic0) _ _ [] _ _ _)).
    + intros a Ha. exact Ha.
    + rewrite app_nil_r. auto.
    + intros done0 kv ic0 Hkv [P2 T2]. eapply good_impl; [|apply HA].
      * cbv beta. intros c' [[P3 T3] _]. split; [|exact T3]. rewrite flat_map_app, app_assoc. cbn [flat_map]. rewrite app_nil_r. rewrite kfacts_single in P3. destruct kv as [k0 v0]. rewrite P3. apply Permutation_app_tail, P2.
      * exact T2.
      * apply tamec_body in Tv. rewrite Forall_forall in Tv. apply Tv, Hkv.
      * destruct (fst kv); exact I.
  - intros ic [P1 T1]. eapply good_bind with (P := fun _ => True); [|intros [] _; split; assumption].
    assert (G : forall (ks : list (str * cidx)) u, good (fun _ => True) (fold_res (fun (_ : unit) kv => validate_key n ic (fst kv)) ks u)).
    { induction ks as [|x ks IH]; intros u; [exact I|]. cbn [fold_res]. pose proof (HV ic (fst x) T1) as G. destruct (validate_key n ic (fst x)); [apply IH|exact G]. }
    apply G.
Qed.
Lemma step_Vf n : P_f n -> V_f (S n).
Proof.
  intros HP c k Hc. cbn [validate_key]. destruct (map_get k (c_map c)) as [[]|] eqn:E; try exact I. eapply good_bind; [apply HP; [exact Hc|eapply range_f; eauto]|]. intros; exact I.
Qed.
Lemma step_Cf n : P_f n -> C_f (S n).
Proof.
  intros HP c k Hc. cbn [contains has]. destruct (map_get k (c_map c)) as [[i|l]|] eqn:E.
  - cbn. split; eauto.
  - pose proof (HP c l Hc (range_f _ _ _ Hc E)) as H. destruct (proxy n c l) as [c'|e]; cbn [good] in *; [split; eauto|]. destruct e; try exact I; destruct H.
  - cbn. split; [discriminate|]. intros [ci H]. discriminate.
Qed.

Lemma super_own c m : tm_super m <> None -> table_is_super c m = true -> own_fact m = [].
Proof. unfold table_is_super, own_fact. destruct (tm_super m) as [[]|]; congruence. Qed.
Lemma step_Af n : A_f n -> C_f n -> V_f n -> T_f n -> A_f (S n).
Proof.
  intros HA HC HV HT s prox c k it v Hc Hi Hk. cbn [append].
  assert (G : forall ok, good (fun c' => added c (efacts (ok, it)) c' /\ has (option_map k_key ok) c')
    (let it0 := match ok with Some k' => set_name (k_key k') it | None => it end in
     let it1 := pre_append c ok it0 in
     match ok with
          | None => append_end c None it1
          | Some k' =>
              let* present := contains n c (k_key k') in
              if negb present then append_end c ok it1
              else
                let 'Cont body m p tks d := c in
                match map_get (k_key k') m with
                | None => Err KeyErrorE
                | Some ci =>
                    let pos := match ci with One x => x | Many l => last l 0%nat end in
                    match nth_error body pos with
                    | None => Err IndexErrorE
                    | Some (ck, cur) =>
                        let cur_dotted := match ck with Some x => k_dotted x | None => false end in
                        match it1 with
                        | ITable ic im =>
                            if negb (is_table_or_aot cur) then Err (KeyAlreadyPresentE (k_key k'))
                            else if tm_aot im then
                              if is_shared prox then Err UnmodelledE
                              else if s then Err (LossyE 9)
                              else
                              match cur with
                              | IAoT l nm ap t =>
                                  Ok (Cont (list_set pos (ck, IAoT (aot_append l ap t (ic, im)) nm ap t) body) m p tks d)
                              | ITable cc cmeta =>
                                  replace_at n s c (Some ci) (NKKey k')
                                             (aot_make [(cc, cmeta); (ic, im)] None p)
                              | _ => Err (KeyAlreadyPresentE (k_key k'))
                              end
                            else if is_aot cur then Err (KeyAlreadyPresentE (k_key k'))
                            else if item_is_super cur then
                              if table_is_super ic im then
                                let mk := k_dotted k' || cur_dotted in
                                let differs := match tks with
                                               | [] => Err IndexErrorE
                                               | _ => Ok (negb (str_eqb (last tks []) (match ck with Some x => k_key x | None => [] end)))
                                               end in
                                let* cond := (if mk then Ok true else differs) in
                                if cond then
                                  let ix := if k_dotted k' && negb p then last_index_before_table body
                                            else List.length body in
                                  let* c' := (if Nat.ltb ix (List.length body) then insert_at c ix k' it1
                                              else raw_append c ok it1) in
                                  if v then
                                    let* _ := validate_key n c' (k_key k') in Ok c'
                                  else Ok c'
                                else
                                  if s && negb (is_last pos body) then Err (LossyE 7)
                                  else if s && negb (str_eqb (match ck with Some x => k_orig x | None => [] end) (k_orig k')) then Err (LossyE 5)
                                  else
                                  match cur with
                                  | ITable cc cmeta =>
                                      let* r := fold_res (fun acc (kv : option skey * item) =>
                                                  table_append n (if is_own prox then Own else Copied) s (fst acc) (snd acc)
                                                               (option_map KSingle (fst kv)) (snd kv))
                                                  (c_body ic) (cc, cmeta) in
                                      Ok (Cont (list_set pos (ck, ITable (fst r) (snd r)) body) m p tks d)
                                  | _ => Err TypeErrorE
                                  end
                              else if cur_dotted then Err TOMLKitErrorE
                              else append_end c ok it1
                            else if negb (table_is_super ic im) then Err (KeyAlreadyPresentE (k_key k'))
                            else append_end c ok it1
                        | IAoT il _ _ _ =>
                            match cur with
                            | IAoT l nm ap t =>
                                if is_shared prox then Err UnmodelledE
                                else if s && negb (is_last pos body) then Err (LossyE 6)
                                else if s && negb (str_eqb (match ck with Some x => k_orig x | None => [] end) (k_orig k')) then Err (LossyE 5)
                                else Ok (Cont (list_set pos (ck, IAoT (fold_left (fun l x => aot_append l ap t x) il l) nm ap t) body) m p tks d)
                            | _ => Err (KeyAlreadyPresentE (k_key k'))
                            end
                        | _ => Err (KeyAlreadyPresentE (k_key k'))
                        end
                    end
                end
          end)).
  { clear Hk k. intros ok. cbv zeta.
    set (it0 := match ok with Some k' => set_name (k_key k') it | None => it end).
    assert (Hi' : tame it0 /\ facts_item it0 = facts_item it) by (unfold it0; destruct ok; [split; [apply tame_name; exact Hi|apply facts_name]|auto]).
    clearbody it0. destruct Hi' as [Hi0 F0]. destruct (pre_facts c ok it0 Hi0) as (F1 & Hi1 & _ & _). set (it1 := pre_append c ok it0) in *. clearbody it1. rewrite F0 in F1. clear F0 Hi0 it0.
    rewrite (efacts_same (ok, it) (ok, it1)) by (cbn; congruence). clear F1 Hi it. rename it1 into it, Hi1 into Hi.
    destruct ok as [k|]; [|apply end_f; auto].
    eapply good_bind; [apply HC; exact Hc|]. intros present Hp. destruct present; cbn [negb].
    2:{ apply end_f; auto. unfold may_add. destruct (map_get (k_key k) (c_map c)) eqn:E; [|exact I].
        destruct Hp as [_ Hp]. cbn [has] in Hp. discriminate Hp. eauto. }
    destruct Hp as [Hp _]. specialize (Hp eq_refl). cbn [has] in Hp. destruct Hp as [ci Hci]. destruct c as [body m p tks d]. cbn [c_map] in Hci. rewrite Hci.
    destruct (tamec_cons _ Hc) as [Hm _]. cbn [c_body c_map] in Hm. destruct (Hm _ _ Hci) as (N1 & N2 & N3).
    set (pos := match ci with One x => x | Many l => last l 0 end).
    assert (Hpos : keyed (match ci with Many _ => true | One _ => false end) body (k_key k) pos).
    { rewrite Forall_forall in N3. apply N3. destruct ci; cbn [idxs] in *; [left; reflexivity|apply last_in; exact (roomy_ne _ N1)]. }
    destruct Hpos as (sk & cur & E & K & T). rewrite E.
    assert (Hcur : tame cur) by exact (tamec_in (Cont body m p tks d) pos (Some sk, cur) Hc E).
    cbn [option_map]. assert (HasC : forall b' tks' d', has (Some (k_key k)) (Cont b' m p tks' d')) by (intros; cbn; eauto).
    pose proof (tame_noaot _ Hi) as Na.
    destruct it as [| | | | | |ic im|il iln ilp ilt]; try exact I; [|discriminate Na]. pose proof (tame_noaot _ Hcur) as Nc. pose proof (tame_inv _ _ Hi) as (Ta & Ts & Tc).
    destruct (is_table_or_aot cur) eqn:Eta; cbn [negb]; [|exact I]. rewrite Ta, Nc. destruct cur as [| | | | | |cc cm|l nm ap t]; try discriminate. clear Eta Nc Na.
    assert (MA : may_add m body k (ITable ic im)).
    { unfold may_add. rewrite Hci. split; [|reflexivity]. destruct ci as [x|l]; [|exact I]. exists (Some sk), (ITable cc cm). auto. }
    pose proof (tame_inv _ _ Hcur) as (Ua & Us & Uc).
    destruct (item_is_super (ITable cc cm)) eqn:Esup.
    2:{ destruct (negb (table_is_super ic im)); [exact I|]. apply (end_f (Cont body m p tks d) (Some k)); auto. }
    destruct (table_is_super ic im) eqn:Esup'.
    2:{ destruct (k_dotted sk); [exact I|]. apply (end_f (Cont body m p tks d) (Some k)); auto. }
    eapply good_bind with (P := fun _ => True).
    { destruct (k_dotted k || k_dotted sk)%bool; [exact I|]. destruct tks; exact I. }
    intros cond _. destruct cond.
    - eapply good_bind with (P := fun c' => added (Cont body m p tks d) (efacts (Some k, ITable ic im)) c' /\ has (Some (k_key k)) c').
      + destruct (Nat.ltb _ _); [apply (insert_f (Cont body m p tks d)); auto|]. apply (raw_f (Cont body m p tks d) (Some k)); auto.
      + intros c' [Hc' Hh]. destruct v; [|split; assumption].
        eapply good_bind; [apply HV; apply Hc'|]. intros; split; assumption.
    - destruct (s && negb (is_last _ _))%bool; [exact I|]. destruct (s && negb (str_eqb _ _))%bool; [exact I|].
      eapply good_bind.
      + refine (good_fold (fun done r => added cc (flat_map efacts done) (fst r) /\ snd r = cm) _ _ [] _ _ _); [split; [|reflexivity]; split; [cbn; rewrite app_nil_r; reflexivity|exact Uc]|].
        intros done kv [c1 m1] Hkv [[X1 X2] X3]. cbn [fst snd] in *. subst m1. eapply good_impl; [|apply HT; [exact X2| |]].
        * cbv beta. intros [c2 m2] [[Y1 Y2] Y3]. cbn [fst snd] in *. split; [|exact Y3]. split; [|exact Y2]. rewrite kfacts_single in Y1. rewrite Y1, X1, flat_map_app, <- app_assoc. cbn [flat_map]. rewrite app_nil_r, <- surjective_pairing. reflexivity.
        * apply tamec_body in Tc. rewrite Forall_forall in Tc. apply Tc, Hkv.
        * destruct (fst kv); exact I.
      + intros [c1 m1] [[X1 X2] X3]. cbn [fst snd] in *. subst m1. cbn [good]. split; [|apply HasC]. cbn [app] in X1. split.
        * rewrite !facts_eq. replace (efacts (Some k, ITable ic im)) with (under [k_key sk] (facts ic)) by (cbn [efacts facts_item]; rewrite (super_own ic im (proj1 Ts) Esup'), K; reflexivity).
          eapply efacts_grow; [exact E|]. cbn [facts_item]. rewrite <- app_assoc. apply Permutation_app_head. rewrite (facts_body ic). exact X1.
        * eapply tamec_set; [exact E|reflexivity| |exact Hc]. constructor; [assumption| |assumption]. split; [apply Us|]. intros Z Z2. rewrite Z2 in X1. apply Permutation_nil, app_eq_nil in X1 as [X1 _]. exact (proj2 Us Z X1). }
  destruct k as [[k|ks sep orig]|].
  - apply (G (Some k)).
  - cbn [key_fine] in Hk. destruct ks as [|name [|x rest]]; cbn in Hk; try lia.
    destruct (is_table_or_aot it) eqn:Eit; [exact I|]. apply other_facts in Eit. destruct (dotted_f sep it Hi Eit (x :: rest)) as [D1 D2]; [discriminate|].
    eapply good_impl; [|apply HA; [exact Hc|apply super_tame; [exact D1|rewrite D2; apply under_ne, Eit]|exact I]].
    intros c' [[X1 X2] X3]. split; [|exact X3]. split; [|exact X2]. rewrite X1. apply Permutation_app_head. cbn [kfacts key_parts facts_item own_fact super_meta tm_super app]. rewrite D2, under_under. reflexivity.
  - apply (G None).
Qed.
Lemma all_f n : A_f n /\ C_f n /\ P_f n /\ V_f n /\ T_f n.
Proof.
  induction n as [|n (HA & HC & HP & HV & HT)].
  - repeat split; repeat intro; exact I.
  - split; [apply step_Af; assumption|]. split; [apply step_Cf; assumption|]. split; [apply step_Pf; assumption|].
    split; [apply step_Vf; assumption|apply step_Tf; assumption].
Qed.
Lemma cappend_f c k it : tamec c -> tame it -> key_fine k -> good (added c (kfacts k it)) (cappend false c k it).
Proof. intros. unfold cappend. eapply good_impl; [|apply (proj1 (all_f _)); assumption]. intros c' [H' _]. exact H'. Qed.
Lemma table_raw_f c k it : tamec c -> tame it -> key_fine k -> good (added c (kfacts k it)) (table_raw_append false c k it).
Proof.
  intros Hc Hi Hk. unfold table_raw_append. eapply good_bind; [apply (proj1 (all_f _)); assumption|]. intros c' [H1 H2].
  unfold first_key in H2. destruct (option_map _ k); [|exact H1]. destruct H2 as [ci Hci]. rewrite Hci. destruct ci; [exact H1|].
  eapply good_bind; [apply (proj1 (proj2 (proj2 (all_f _)))); [apply H1|eapply range_f; [apply H1|exact Hci]]|]. intros; exact H1.
Qed.
Lemma parsing_kind b i : is_table (parsing_item b i) = is_table i. Proof. destruct i; reflexivity. Qed.
Lemma parsing_facts b : (forall i, tame i -> facts_item (parsing_item b i) = facts_item i /\ tame (parsing_item b i)) /\ (forall c, tamec c -> facts (parsing_cont b c) = facts c /\ tamec (parsing_cont b c)).
Proof.
  apply item_cont_ind; try (intros; split; [reflexivity|assumption]).
  - intros c m IH H. apply tame_inv in H as (A & B & C). destruct (IH C) as [E T]. cbn [parsing_item facts_item]. rewrite E. split; [reflexivity|]. constructor; [assumption|rewrite E; assumption|assumption].
  - intros l n p t IH H. apply tame_noaot in H. discriminate.
  - intros body m p tks d IH H. apply tamec_body in H as Hb. cbn [c_body] in Hb. cbn [parsing_cont]. split.
    + rewrite !facts_eq, flat_map_map. clear H. induction body as [|[k v] body IHb]; [reflexivity|]. cbn [flat_map]. inversion Hb; inversion IH; subst. rewrite IHb by assumption. f_equal.
      apply efacts_same; [reflexivity|]. cbn [snd] in *. match goal with X : _ -> _ /\ _ |- _ => apply X; assumption end.
    + constructor.
      * cbn [c_body]. rewrite Forall_forall in *. intros x Hx. apply in_map_iff in Hx as ([k v] & <- & Hin). apply (IH _ Hin), (Hb _ Hin).
      * apply tamec_cons in H. destruct H as [M F]. apply (consistent_map (fun kv => match kv with (k, v) => (k, parsing_item b v) end) body m b tks d); [intros [k v]; cbn [fst snd]; rewrite parsing_kind; auto|]. split; assumption.
Qed.
Lemma merge_f i c st c' : tamec c -> merge_ws i c st = Some c' -> tamec c' /\ facts c' = facts c.
Proof.
  intros Hc H. destruct c as [body m p tks d]. unfold merge_ws in H. destruct i; try discriminate.
  destruct (rev body) as [|[k [l f| | | | | | | ]] r] eqn:E; try discriminate. inversion H; subst; clear H.
  assert (Eb : body = rev r ++ [(k, IWs l f)]) by (rewrite <- (rev_involutive body), E; reflexivity).
  assert (Hn : nth_error body (List.length r) = Some (k, IWs l f)).
  { rewrite Eb, nth_error_app2; rewrite rev_length; [|lia]. rewrite Nat.sub_diag. reflexivity. }
  match goal with |- tamec (Cont (rev r ++ [(k, ?x)]) _ _ _ _) /\ _ => assert (Es : rev r ++ [(k, x)] = list_set (List.length r) (k, x) body) end.
  { rewrite Eb, <- (rev_length r). generalize (rev r). intros l0. induction l0 as [|y l0 IH]; cbn [app List.length list_set]; [reflexivity|]. rewrite <- IH. reflexivity. }
  rewrite Es. split; [eapply tamec_set; [exact Hn|discriminate|apply tame_other; reflexivity|exact Hc]|]. rewrite !facts_eq. apply (efacts_set _ _ _ _ _ Hn). reflexivity.
Qed.
