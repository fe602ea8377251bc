(** NoLoss: texts of an ordinary shape come back (C01): the strict parser makes no report on them. *)
From Verif Require Import Base Source Utils Items Container Arrays Parser Lemmas Escape Strings StringRT StringApi Numbers Reader Linecol Wf Errors.
From Coq Require Import ZifyBool ZifyNat ZifyN.
Open Scope nat_scope.

Definition nl (e : exn) : Prop := match e with LossyE _ => False | _ => True end.
Definition nlr {A} (r : res A) : Prop := match r with Ok _ => True | Err e => nl e end.
Lemma nlr_bind {A B} (r : res A) (f : A -> res B) : nlr r -> (forall a, r = Ok a -> nlr (f a)) -> nlr (rbind r f).
Proof. destruct r; cbn; auto. Qed.
Lemma nlr_fold {A B} (f : B -> A -> res B) l : (forall b x, nlr (f b x)) -> forall b, nlr (fold_res f l b).
Proof.
  intros H. induction l as [|x l IH]; intros b; cbn [fold_res]; [exact I|]. pose proof (H b x) as N. destruct (f b x); [apply IH|exact N].
Qed.
Lemma nlr_raw c k it : nlr (raw_append c k it).
Proof.
  unfold raw_append. destruct c as [body m p tks d]. destruct k; [|exact I]. destruct (map_get _ _); [|exact I]. destruct (nth_error _ _) as [[? ?]|]; [|exact I]. destruct (is_table _); exact I.
Qed.
Lemma nlr_insert c i k it : nlr (insert_at c i k it).
Proof. unfold insert_at. destruct c. destruct (_ || _); exact I. Qed.
Lemma nlr_end c k it : nlr (append_end c k it).
Proof.
  unfold append_end. destruct c. destruct k; [|apply nlr_raw]. destruct (_ && _); [|apply nlr_raw]. cbv zeta. destruct (Nat.ltb _ _); [apply nlr_insert|].
  destruct (nth_error _ _) as [[? ?]|]; [|apply nlr_raw]. destruct (_ || _); apply nlr_raw.
Qed.
Lemma nlr_remove c k : nlr (remove c k).
Proof. unfold remove. destruct c. destruct (map_get _ _); exact I. Qed.
Definition quiet_at n :=
  (forall prox c k it v, nlr (append n prox false c k it v)) /\ (forall c k, nlr (contains n c k)) /\ (forall c l, nlr (proxy n c l)) /\ (forall c k, nlr (validate_key n c k))
  /\ (forall prox c tm k it, nlr (table_append n prox false c tm k it)) /\ (forall c ci nk v, nlr (replace_at n false c ci nk v)).
Ltac nlr := repeat first
  [ exact I | apply nlr_end | apply nlr_raw | apply nlr_insert | apply nlr_remove
  | match goal with H : forall _, _ |- nlr _ => apply H end
  | apply nlr_bind; [|intros ? _] | apply nlr_fold; intros ? ?
  | match goal with |- nlr (match ?x with _ => _ end) => destruct x end
  | match goal with |- nlr (let _ := _ in _) => cbv zeta end ].
Lemma quiet_all n : quiet_at n.
Proof.
  induction n as [|n (H1 & H2 & H3 & H4 & H5 & H6)]; [repeat split; intros; exact I|].
  assert (C : forall c k, nlr (contains (S n) c k)).
  { intros. cbn [contains]. destruct (map_get _ _) as [[|l]|]; try exact I. pose proof (H3 c l) as P. destruct (proxy n c l) as [|[]]; try exact I; exact P. }
  split; [|split; [exact C|split; [|split; [|split]]]].
  - intros. cbn [append]. cbn [andb]. nlr.
  - intros. cbn [proxy]. nlr.
  - intros. cbn [validate_key]. nlr.
  - intros. cbn [table_append]. nlr.
  - intros. cbn [replace_at]. nlr.
Qed.

(** * Containers: pairs, comments and white space first, then tables with headers *)
Definition body_t := list (option skey * item).
Definition flat (kv : option skey * item) : Prop :=
  match kv with (_, IAoT _ _ _ _) => False | (Some k, ITable _ _) => k_dotted k = true | (None, ITable _ _) => False | _ => True end.
Definition hkey (k : skey) : Prop := k_dotted k = false /\ k_orig k = k_key k.
Definition hdr (kv : option skey * item) : Prop := exists k c m, kv = (Some k, ITable c m) /\ hkey k.
Definition place (ci : cidx) : nat := match ci with One x => x | Many l => last l 0%nat end.
(** The map knows the last entry of every name. *)
Definition latest (body : body_t) (m : list (str * cidx)) : Prop :=
  (forall i k it, nth_error body i = Some (Some k, it) -> exists ci, map_get (k_key k) m = Some ci /\ i <= place ci)
  /\ (forall n ci, map_get n m = Some ci -> exists k it, nth_error body (place ci) = Some (Some k, it) /\ k_key k = n).
Definition last_name (B : body_t) : str := match last B (None, INull) with (Some k, _) => k_key k | _ => [] end.
Inductive nice_i : item -> Prop :=
  | ni_table c m : first_spaces (tr_indent (tm_trivia m)) = None -> tm_aot m = false -> (table_is_super c m = true -> Forall hdr (c_body c)) -> tm_super m <> None -> nice c -> nice_i (ITable c m)
with nice : container -> Prop :=
  | nice_c A B m tks d : Forall flat A -> Forall hdr B -> Forall (fun kv => nice_i (snd kv)) B -> (B <> [] -> last tks [] = last_name B) -> latest (A ++ B) m -> nice (Cont (A ++ B) m true tks d).
Definition flat_c (c : container) : Prop := Forall flat (c_body c) /\ latest (c_body c) (c_map c) /\ c_parsed c = true.
Lemma flat_nice c : flat_c c -> nice c.
Proof.
  destruct c as [body m p tks d]. intros (F & Lt & P). cbn in F, Lt, P. subst p. rewrite <- (app_nil_r body). constructor; auto; [congruence|]. rewrite app_nil_r. exact Lt.
Qed.
Lemma str_eqb_spec a b : reflect (a = b) (str_eqb a b).
Proof. apply iff_reflect. symmetry. apply str_eqb_eq. Qed.
Lemma latest_snoc body m k it : latest body m -> latest (body ++ [(None, it)]) m /\
  forall ci, place ci = List.length body -> latest (body ++ [(Some k, it)]) (map_set (k_key k) ci m).
Proof.
  intros [H1 H2]. split; [split|].
  - intros i k0 it0 H. destruct (Nat.lt_ge_cases i (List.length body)) as [L|L]; [rewrite nth_error_app1 in H by exact L; eauto|].
    rewrite nth_error_app2 in H by exact L. destruct (i - List.length body) as [|[|]]; discriminate.
  - intros n ci H. destruct (H2 n ci H) as (k0 & it0 & N & E). exists k0, it0. split; [|exact E]. rewrite nth_error_app1; [exact N|]. apply nth_error_Some. congruence.
  - intros ci Pc. split.
    + intros i k0 it0 H. rewrite map_get_set. destruct (str_eqb_spec (k_key k0) (k_key k)) as [E|E].
      * exists ci. split; [reflexivity|]. rewrite Pc. assert (i < List.length (body ++ [(Some k, it)])) by (apply nth_error_Some; congruence). rewrite app_length in *. cbn in *. lia.
      * destruct (Nat.lt_ge_cases i (List.length body)) as [L|L]; [rewrite nth_error_app1 in H by exact L; eauto|].
        rewrite nth_error_app2 in H by exact L. destruct (i - List.length body) as [|[|]]; try discriminate. cbn in H. congruence.
    + intros n c0 H. rewrite map_get_set in H. destruct (str_eqb_spec n (k_key k)) as [->|E].
      * injection H as <-. exists k, it. split; [|reflexivity]. rewrite Pc, nth_error_app2, Nat.sub_diag by lia. reflexivity.
      * destruct (H2 n c0 H) as (k0 & it0 & N & E2). exists k0, it0. split; [|exact E2]. rewrite nth_error_app1; [exact N|]. apply nth_error_Some. congruence.
Qed.
(** Values, comments and white space. *)
Lemma raw_flat c k it c' : flat_c c -> flat (k, it) -> raw_append c k it = Ok c' -> flat_c c'.
Proof.
  destruct c as [body m p tks d]. intros (F & Lt & P) Fi H. cbn in F, Lt, P. subst p. cbn [raw_append] in H. destruct k as [k|].
  - destruct (latest_snoc body m k it Lt) as [_ Ls].
    assert (G : exists ci, place ci = List.length body /\ c' = Cont (body ++ [(Some k, it)]) (map_set (k_key k) ci m) true (if is_table it then tks ++ [k_key k] else tks) (dict_set (k_key k) d)).
    { destruct (map_get (k_key k) m) as [ci|].
      - destruct (nth_error body _) as [[? cu]|]; [|discriminate]. destruct (is_table cu); [|discriminate]. cbn [rbind] in H. injection H as <-. eexists. split; [|reflexivity]. cbn. apply last_last.
      - cbn [rbind] in H. injection H as <-. eexists. split; [|reflexivity]. reflexivity. }
    destruct G as (ci & Pc & ->). split; [|split; [apply Ls, Pc|reflexivity]]. cbn. apply Forall_app. auto.
  - injection H as <-. split; [|split; [|reflexivity]]; cbn; [apply Forall_app; auto|]. exact (proj1 (latest_snoc body m (mkSKey [] KTBare [] [] false) it Lt)).
Qed.
Lemma append_end_parsed c k it : c_parsed c = true -> append_end c k it = raw_append c k it.
Proof. destruct c as [body m p tks d]. cbn. intros ->. destruct k; [|reflexivity]. rewrite andb_false_r. reflexivity. Qed.
Lemma pre_append_parsed c k it : c_parsed c = true -> pre_append c k it = it.
Proof.
  destruct c as [body m p tks d]. cbn. intros ->. destruct it; try reflexivity; cbn; rewrite ?andb_false_r; reflexivity.
Qed.
Definition okc (Q : container -> Prop) (r : res container) : Prop := match r with Ok c => Q c | Err e => nl e end.
Lemma okc_nlr (Q : container -> Prop) r : nlr r -> (forall c, r = Ok c -> Q c) -> okc Q r.
Proof. destruct r; cbn; auto. Qed.
Lemma okc_bind {A} (Q : container -> Prop) (r : res A) f : nlr r -> (forall a, r = Ok a -> okc Q (f a)) -> okc Q (rbind r f).
Proof. destruct r; cbn; auto. Qed.
Lemma okc_raw_flat c k it : flat_c c -> flat (k, it) -> okc flat_c (raw_append c k it).
Proof. intros F H. apply okc_nlr; [apply nlr_raw|]. intros c' E. eapply raw_flat; eauto. Qed.
Lemma set_name_flat n k it : flat (k, it) -> flat (k, set_name n it).
Proof. destruct it as [| | | | | |c m|l [nm|] p t]; cbn; auto. destruct (tm_name m); cbn; auto. Qed.
Lemma set_name_val n it : is_table_or_aot it = false -> set_name n it = it.
Proof. destruct it; cbn; try discriminate; reflexivity. Qed.
(** A plain value or nothing in front of it. *)
Lemma append_val n v c k it : flat_c c -> is_table_or_aot it = false -> okc flat_c (append n Own true c (option_map KSingle k) it v).
Proof.
  intros F Hv. destruct n; [exact I|]. cbn [append]. destruct (quiet_all n) as (_ & QC & _).
  assert (E : kstr (option_map KSingle k) = k) by (destruct k; reflexivity).
  assert (Pc : c_parsed c = true) by apply F. destruct k as [k|]; cbn [option_map]; rewrite ?E; cbn [kstr option_map] in *.
  - rewrite (set_name_val _ it Hv), pre_append_parsed by exact Pc. apply okc_bind; [apply QC|]. intros [|] _; cbn [negb].
    + destruct c as [body m p tks d]. destruct (map_get _ _); [|exact I]. cbv zeta. destruct (nth_error _ _) as [[ck cu]|]; [|exact I]. destruct it; try exact I; discriminate.
    + rewrite append_end_parsed by exact Pc. apply okc_raw_flat; [exact F|]. destruct it; try exact I; discriminate.
  - rewrite pre_append_parsed, append_end_parsed by exact Pc. apply okc_raw_flat; [exact F|]. destruct it; try exact I; discriminate.
Qed.
(** A table below a dotted key. *)
Lemma append_dotted n v c k ic im : flat_c c -> k_dotted k = true -> tm_aot im = false -> okc flat_c (append n Own true c (Some (KSingle k)) (ITable ic im) v).
Proof.
  intros F Hk Ha. destruct n; [exact I|]. cbn [append]. destruct (quiet_all n) as (_ & QC & _ & QV & _). assert (Pc : c_parsed c = true) by apply F.
  cbn [kstr]. rewrite pre_append_parsed by exact Pc.
  assert (Ex : exists im', set_name (k_key k) (ITable ic im) = ITable ic im' /\ tm_aot im' = false) by (cbn; destruct (tm_name im); eauto).
  destruct Ex as (im' & -> & Ha'). clear im Ha. set (it := ITable ic im').
  assert (Ff : flat (Some k, it)) by exact Hk. assert (Re : okc flat_c (append_end c (Some k) it)) by (rewrite append_end_parsed by exact Pc; apply okc_raw_flat; assumption).
  apply okc_bind; [apply QC|]. intros [|] _; cbn [negb]; [|exact Re].
  assert (Rw : okc flat_c (raw_append c (Some k) it)) by (apply okc_raw_flat; assumption).
  destruct c as [body m p tks d]. cbn in Pc. subst p. destruct (map_get (k_key k) m) as [ci|]; [|exact I]. cbv zeta. destruct (nth_error body _) as [[ck cu]|]; [|exact I].
  unfold it at 1. cbv iota. destruct (negb (is_table_or_aot cu)); [exact I|]. rewrite Ha'. destruct (is_aot cu); [exact I|]. destruct (item_is_super cu).
  - destruct (table_is_super ic im').
    + rewrite Hk. cbn [orb rbind negb andb]. rewrite Nat.ltb_irrefl. fold it. destruct (raw_append (Cont body m true tks d) (Some k) it) as [c'|e]; [|exact Rw]. cbn [rbind].
      destruct v; [|exact Rw]. apply okc_bind; [apply QV|]. intros _ _. exact Rw.
    + destruct (match ck with Some x => k_dotted x | None => false end); [exact I|exact Re].
  - destruct (negb (table_is_super ic im')); [exact I|exact Re].
Qed.
Lemma append_pair n v c k it : flat_c c -> key_fine k -> is_table_or_aot it = false -> okc flat_c (append n Own true c k it v).
Proof.
  intros F Hk Hv. destruct k as [[k|[|a [|b r]] sep o]|]; try (exfalso; cbn in Hk; lia).
  - exact (append_val n v c (Some k) it F Hv).
  - destruct n; [exact I|]. cbn [append]. rewrite Hv. apply append_dotted; [exact F|reflexivity|reflexivity].
  - exact (append_val n v c None it F Hv).
Qed.
(** * Tables with headers *)
Lemma nice_parsed c : nice c -> c_parsed c = true. Proof. intros H. inversion H. reflexivity. Qed.
Lemma nice_i_inv c m : nice_i (ITable c m) -> first_spaces (tr_indent (tm_trivia m)) = None /\ tm_aot m = false /\ (table_is_super c m = true -> Forall hdr (c_body c)) /\ tm_super m <> None /\ nice c.
Proof. intros H. inversion H; subst. auto. Qed.
Lemma set_name_nice n c m : nice_i (ITable c m) -> exists m', set_name n (ITable c m) = ITable c m' /\ nice_i (ITable c m').
Proof.
  intros H. cbn. destruct (tm_name m); [eauto|]. eexists. split; [reflexivity|]. apply nice_i_inv in H as (A & B & C & S' & D). constructor; auto.
Qed.
Definition grown (c c' : container) : Prop := nice c' /\ (Forall hdr (c_body c) -> Forall hdr (c_body c')).
Lemma raw_nice c k ic im : nice c -> hkey k -> nice_i (ITable ic im) -> okc (grown c) (raw_append c (Some k) (ITable ic im)).
Proof.
  intros H Hk Hi. apply okc_nlr; [apply nlr_raw|]. intros c' E. inversion H as [A B m tks d HA HB HN HT HL]; subst c. cbn [raw_append] in E.
  destruct (latest_snoc (A ++ B) m k (ITable ic im) HL) as [_ Ls].
  assert (G : exists ci, place ci = List.length (A ++ B) /\ c' = Cont ((A ++ B) ++ [(Some k, ITable ic im)]) (map_set (k_key k) ci m) true (tks ++ [k_key k]) (dict_set (k_key k) d)).
  { destruct (map_get (k_key k) m) as [ci|].
    - destruct (nth_error (A ++ B) _) as [[? cu]|]; [|discriminate]. destruct (is_table cu); [|discriminate]. cbn [rbind is_table] in E. injection E as <-. eexists. split; [|reflexivity]. cbn. apply last_last.
    - cbn [rbind is_table] in E. injection E as <-. eexists. split; [|reflexivity]. reflexivity. }
  destruct G as (ci & Pc & ->). assert (Hh : hdr (Some k, ITable ic im)) by (exists k, ic, im; auto). split.
  - specialize (Ls ci Pc). rewrite <- app_assoc in *. constructor; auto.
    + apply Forall_app. auto.
    + apply Forall_app. auto.
    + intros _. rewrite last_last. unfold last_name. rewrite last_last. reflexivity.
  - cbn [c_body]. intros X. apply Forall_app. auto.
Qed.
(** An entry with a header name is the last one if its name was the last used. *)
Lemma at_last A B m tks ck cc cm k ci : Forall flat A -> Forall hdr B -> (B <> [] -> last tks [] = last_name B) -> latest (A ++ B) m ->
  map_get k m = Some ci -> nth_error (A ++ B) (place ci) = Some (ck, ITable cc cm) ->
  match ck with Some x => k_dotted x | None => false end = false -> last tks [] = match ck with Some x => k_key x | None => [] end ->
  exists x, ck = Some x /\ hkey x /\ k_key x = k /\ is_last (place ci) (A ++ B) = true /\ exists B', B = B' ++ [(Some x, ITable cc cm)].
Proof.
  intros FA FB HT [L1 L2] Hm Hn Hd Hk. destruct (L2 k ci Hm) as (x & it & N & Ek). rewrite Hn in N. injection N as -> <-. cbn in Hd, Hk.
  assert (Ip : List.length A <= place ci).
  { destruct (Nat.le_gt_cases (List.length A) (place ci)) as [L|L]; [exact L|]. rewrite nth_error_app1 in Hn by exact L. apply nth_error_In in Hn. rewrite Forall_forall in FA. specialize (FA _ Hn). cbn in FA. congruence. }
  rewrite nth_error_app2 in Hn by exact Ip. destruct (exists_last (l := B)) as (B' & y & EB). { intros ->. destruct (place ci - List.length A); discriminate. }
  assert (Hy : hdr y) by (rewrite Forall_forall in FB; apply FB; rewrite EB; apply in_or_app; right; left; reflexivity). destruct Hy as (ky & cy & my & -> & Hky).
  rewrite HT in Hk by (rewrite EB; destruct B'; discriminate). unfold last_name in Hk. rewrite EB, last_last in Hk.
  destruct (L1 (List.length (A ++ B')) ky (ITable cy my)) as (ci' & Hm' & Le). { rewrite EB, app_assoc, nth_error_app2, Nat.sub_diag by lia. reflexivity. }
  rewrite Hk, Ek, Hm in Hm'. injection Hm' as <-.
  assert (Lt : place ci < List.length (A ++ B)). { apply nth_error_Some. rewrite nth_error_app2 by exact Ip. congruence. }
  rewrite EB, app_assoc, app_length in Lt. cbn [List.length] in Lt. assert (Ep : place ci = List.length (A ++ B')) by lia.
  assert (Q : (ky, cy, my) = (x, cc, cm)). { rewrite EB, Ep, app_length in Hn. replace (List.length A + List.length B' - List.length A) with (List.length B') in Hn by lia. rewrite nth_error_app2, Nat.sub_diag in Hn by lia. cbn in Hn. congruence. }
  injection Q as -> -> ->. exists x. split; [reflexivity|]. split; [exact Hky|]. split; [exact Ek|]. split; [|eauto].
  unfold is_last. rewrite Ep, EB, app_assoc, !app_length. cbn [List.length]. apply Nat.eqb_eq. lia.
Qed.
Lemma list_set_last {A} (l : list A) x y : list_set (List.length l) y (l ++ [x]) = l ++ [y].
Proof. induction l as [|z l IH]; cbn; [reflexivity|]. f_equal. exact IH. Qed.
Lemma latest_set A x c m c' m' mm : latest (A ++ [(Some x, ITable c m)]) mm -> latest (A ++ [(Some x, ITable c' m')]) mm.
Proof.
  intros [H1 H2]. assert (K : forall i k it, nth_error (A ++ [(Some x, ITable c' m')]) i = Some (Some k, it) -> exists it', nth_error (A ++ [(Some x, ITable c m)]) i = Some (Some k, it')).
  { intros i k it H. destruct (Nat.lt_ge_cases i (List.length A)) as [L|L]; [rewrite nth_error_app1 in * by exact L; eauto|]. rewrite nth_error_app2 in * by exact L. destruct (i - List.length A) as [|[|]]; cbn in *; try discriminate. injection H as <- _. eauto. }
  assert (K' : forall i k it, nth_error (A ++ [(Some x, ITable c m)]) i = Some (Some k, it) -> exists it', nth_error (A ++ [(Some x, ITable c' m')]) i = Some (Some k, it')).
  { intros i k it H. destruct (Nat.lt_ge_cases i (List.length A)) as [L|L]; [rewrite nth_error_app1 in * by exact L; eauto|]. rewrite nth_error_app2 in * by exact L. destruct (i - List.length A) as [|[|]]; cbn in *; try discriminate. injection H as <- _. eauto. }
  split.
  - intros i k it H. destruct (K i k it H) as [it' H']. eauto.
  - intros n ci H. destruct (H2 n ci H) as (k & it & N & E). destruct (K' _ _ _ N) as [it' N']. eauto.
Qed.
Definition hdr_at n :=
  (forall v c k ic im, nice c -> hkey k -> nice_i (ITable ic im) -> okc (grown c) (append n Own true c (Some (KSingle k)) (ITable ic im) v))
  /\ (forall c tm k ic im, nice c -> hkey k -> nice_i (ITable ic im) -> first_spaces (tr_indent (tm_trivia tm)) = None ->
       match table_append n Own true c tm (Some (KSingle k)) (ITable ic im) with Ok (c', tm') => tm' = tm /\ grown c c' | Err e => nl e end).
Lemma hdr_all n : hdr_at n.
Proof.
  induction n as [|n [H1 H2]]; [split; intros; exact I|]. destruct (quiet_all n) as (_ & QC & QP & QV & _). split.
  - intros v c k ic im Hc Hk Hi. pose proof (nice_parsed c Hc) as Pc. cbn [append kstr]. destruct (set_name_nice (k_key k) ic im Hi) as (im' & -> & Hi'). clear im Hi.
    rewrite pre_append_parsed by exact Pc. set (it := ITable ic im').
    assert (Rw : okc (grown c) (raw_append c (Some k) it)) by (apply raw_nice; assumption).
    assert (Re : okc (grown c) (append_end c (Some k) it)) by (rewrite append_end_parsed by exact Pc; exact Rw).
    apply okc_bind; [apply QC|]. intros [|] _; cbn [negb]; [|exact Re].
    destruct (nice_i_inv ic im' Hi') as (I1 & I2 & I3 & I4 & I5).
    inversion Hc as [A B m tks d HA HB HN HT HL]; subst c. destruct (map_get (k_key k) m) as [ci|] eqn:Em; [|exact I]. cbv zeta. change (match ci with One x => x | Many l => last l 0 end) with (place ci).
    destruct (nth_error (A ++ B) (place ci)) as [[ck cu]|] eqn:En; [|exact I].
    unfold it at 1. cbv iota. destruct (negb (is_table_or_aot cu)); [exact I|]. rewrite I2. destruct (is_aot cu) eqn:Ea; [exact I|]. destruct (item_is_super cu) eqn:Es.
    + destruct (table_is_super ic im') eqn:Ei; [|destruct (match ck with Some x => k_dotted x | None => false end); [exact I|exact Re]].
      assert (Rv : forall b : bool, okc (grown (Cont (A ++ B) m true tks d)) (rbind (raw_append (Cont (A ++ B) m true tks d) (Some k) it) (fun c' => if b then rbind (validate_key n c' (k_key k)) (fun _ => Ok c') else Ok c'))).
      { intros b. destruct (raw_append _ _ _) as [c'|e]; [|exact Rw]. cbn [rbind]. destruct b; [|exact Rw]. apply okc_bind; [apply QV|]. intros _ _. exact Rw. }
      fold it. rewrite (proj1 Hk). cbn [orb andb]. rewrite Nat.ltb_irrefl. destruct (match ck with Some x => k_dotted x | None => false end) eqn:Ed; [cbn [rbind]; apply Rv|].
      destruct tks as [|tk tks]; [exact I|]. set (tks' := tk :: tks) in *. cbn [rbind].
      destruct (str_eqb_spec (last tks' []) (match ck with Some x => k_key x | None => [] end)) as [Et|Et]; cbn [negb]; [|apply Rv].
      destruct cu as [| | | | | |cc cm|]; try discriminate. destruct (at_last A B m tks' ck cc cm (k_key k) ci HA HB HT HL Em En Ed Et) as (x & -> & Hx & Ex & Il & B' & EB).
      rewrite Il. cbn [negb andb]. rewrite (proj2 Hx), (proj2 Hk), Ex. rewrite str_eqb_refl. cbn [negb andb is_own].
      assert (Hb : nice_i (ITable cc cm)) by (rewrite Forall_forall in HN; apply (HN (Some x, ITable cc cm)); rewrite EB; apply in_or_app; right; left; reflexivity).
      destruct (nice_i_inv cc cm Hb) as (J1 & J2 & J3 & J4 & J5). cbn [item_is_super] in Es. specialize (J3 Es). specialize (I3 eq_refl). inversion I5 as [A2 B2 m2 tks2 d2 HA2 HB2 HN2 HT2 HL2 E2]. subst ic. cbn [c_body] in *.
      assert (HN3 : Forall (fun kv => nice_i (snd kv)) (A2 ++ B2)).
      { apply Forall_app. split; [|exact HN2]. destruct A2 as [|y A2]; [constructor|]. exfalso. inversion I3 as [|? ? Hy _]; subst. inversion HA2 as [|? ? Fy _]; subst. destruct Hy as (ky & cy & my & -> & Hd & _). cbn in Fy. congruence. }
      match goal with |- okc _ (rbind (fold_res ?f _ _) _) => assert (Fold : forall l cc0, Forall hdr l -> Forall (fun kv => nice_i (snd kv)) l -> nice cc0 -> Forall hdr (c_body cc0) ->
         match fold_res f l (cc0, cm) with Ok (c', tm') => tm' = cm /\ nice c' /\ Forall hdr (c_body c') | Err e => nl e end) end.
      { induction l as [|[y yi] l IH]; intros cc0 Hl Hn2 Hcc Hf; cbn [fold_res]; [auto|]. inversion Hl as [|? ? Hy Hl']; subst. inversion Hn2 as [|? ? Hny Hn']; subst. destruct Hy as (ky & cy & my & Q & Hky). injection Q as -> ->. cbn [fst snd option_map].
        pose proof (H2 cc0 cm ky cy my Hcc Hky Hny J1) as T. destruct (table_append n Own true cc0 cm (Some (KSingle ky)) (ITable cy my)) as [[c1 tm1]|e]; [|exact T]. destruct T as (-> & G1 & G2). apply IH; auto. }
      specialize (Fold (A2 ++ B2) cc I3 HN3 J5 J3). destruct (fold_res _ _ _) as [[c1 tm1]|e]; [|exact Fold]. destruct Fold as (-> & F1 & F2). cbn [rbind fst snd okc].
      assert (Ep : place ci = List.length (A ++ B')). { unfold is_last in Il. apply Nat.eqb_eq in Il. rewrite EB, app_assoc, app_length in Il. cbn [List.length] in Il. lia. }
      rewrite Ep, EB, app_assoc, list_set_last. rewrite EB, app_assoc in HL. apply latest_set with (c' := c1) (m' := cm) in HL. rewrite <- app_assoc in *. rewrite EB in HB, HN. apply Forall_app in HB as [HBa HBb]. apply Forall_app in HN as [HNa HNb].
      assert (Nb : nice_i (ITable c1 cm)). { constructor; auto. }
      assert (Hh : hdr (Some x, ITable c1 cm)) by (exists x, c1, cm; auto).
      split.
      * rewrite <- ?app_assoc. apply (nice_c A (B' ++ [(Some x, ITable c1 cm)])); auto.
        -- apply Forall_app. split; [exact HBa|constructor; [exact Hh|constructor]].
        -- apply Forall_app. split; [exact HNa|constructor; [exact Nb|constructor]].
        -- intros _. rewrite HT by (rewrite EB; destruct B'; discriminate). unfold last_name. rewrite EB, !last_last. reflexivity.
      * cbn [c_body]. intros X. rewrite ?app_assoc in X. apply Forall_app in X as [X _]. apply Forall_app in X as [X1 X2]. rewrite ?app_assoc. apply Forall_app. split; [apply Forall_app; auto|constructor; [exact Hh|constructor]].
    + destruct (negb (table_is_super ic im')); [exact I|exact Re].
  - intros c tm k ic im Hc Hk Hi Ht. cbn [table_append]. pose proof (H1 true c k ic im Hc Hk Hi) as G. destruct (append n Own true c (Some (KSingle k)) (ITable ic im) true) as [c'|e]; [|exact G]. cbn [rbind option_map key_parts okc] in *.
    destruct (map_get (k_key k) (c_map c')) as [[i|l]|]; [| |exact I].
    + rewrite Ht. split; [reflexivity|exact G].
    + pose proof (QP c' l) as P. destruct (proxy n c' l); [|exact P]. cbn [rbind]. rewrite Ht. split; [reflexivity|exact G].
Qed.
