(** Local: a value is read from its own text: what comes before does not matter, and
    of what comes after only the first character can (C39). *)
From Verif Require Import Base Source Utils Items Container Arrays Parser Api Lemmas Escape Strings StringRT StringApi Numbers Reader Control Text TextParse GramSound FuelParse Mono.
From Coq Require Import ZifyBool ZifyNat ZifyN.
Open Scope nat_scope.

Definition mrel (st st2 : pst) : Prop := p_mark st + idx st2 = p_mark st2 + idx st /\ extract st = extract st2.
Lemma mrel_mark st st2 : mrel (set_mark st) (set_mark st2).
Proof. split; [unfold idx; cbn; lia|]. unfold extract. cbn [set_mark p_mark p_pre]. rewrite !skipn_all. reflexivity. Qed.
Lemma mrel_moved w st st2 st' st2' : mrel st st2 -> moved w st st' -> moved w st2 st2' -> p_mark st' = p_mark st -> p_mark st2' = p_mark st2 -> mrel st' st2'.
Proof.
  intros [M1 M2] A B Em Em2. split; [rewrite Em, Em2, (moved_idx _ _ _ A), (moved_idx _ _ _ B); lia|]. destruct A as [_ A], B as [_ B]. unfold extract in *. rewrite Em, Em2, A, B, !skipn_app, M2. f_equal. f_equal. unfold idx in M1. lia.
Qed.
Definition outc {A} (x x2 : res A) : Prop :=
  match x, x2 with Ok a, Ok b => a = b | Err (ParseErr (KUnexpectedChar c) _ _), Err (ParseErr (KUnexpectedChar d) _ _) => c = d | _, _ => False end.
Definition sees {A} (x : res A) (st' : pst) : Prop :=
  match x with Ok _ => True | Err (ParseErr (KUnexpectedChar _) _ _) => cur st' = chRBR | Err _ => False end.
Definition tails (h ok : bool) (t t2 : str) : Prop := hd_error t2 = hd_error t \/ (h = false /\ ok = true /\ t2 = []).
Definition isok {A} (x : res A) : bool := match x with Ok _ => true | Err _ => false end.
(** [m], run from [st], is determined by what it reads (and, if [h], the next character). *)
Definition LocAt {A} (h : bool) (st : pst) (m : M A) : Prop := forall x st', m st = (x, st') -> sees x st' ->
  exists w, moved w st st' /\ forall t2 st2, tails h (isok x) (p_rest st') t2 -> p_rest st2 = w ++ t2 -> mrel st st2 ->
    exists x2 st2', m st2 = (x2, st2') /\ outc x x2 /\ moved w st2 st2' /\ mrel st' st2'.
Definition Loc {A} (m : M A) : Prop := forall st, LocAt true st m.

Lemma loc_weak {A} h st (m : M A) : LocAt false st m -> LocAt h st m.
Proof. intros H x st' E S0. destruct (H x st' E S0) as (w & M & F). exists w. split; [exact M|]. intros t2 st2 T. apply F. destruct T as [T|(-> & T)]; [left; exact T|right; auto]. Qed.
Lemma moved_tail w st st' t : moved w st st' -> p_rest st = w ++ t -> p_rest st' = t.
Proof. intros [A _] B. rewrite A in B. apply app_inv_head in B. exact B. Qed.
Lemma loc_bind {A B} h st (m : M A) (f : A -> M B) : LocAt true st m ->
  (forall a st1, m st = (Ok a, st1) -> LocAt h st1 (f a)) ->
  (h = false -> forall a st1 b st', m st = (Ok a, st1) -> f a st1 = (Ok b, st') -> p_rest st1 <> p_rest st') -> LocAt h st (bind m f).
Proof.
  intros Hm Hf He x st' E S0. unfold bind in E. destruct (m st) as [[a|e] st1] eqn:Em.
  - destruct (Hm _ _ Em I) as (w1 & M1 & F1). destruct (Hf a st1 eq_refl _ _ E S0) as (w2 & M2 & F2). exists (w1 ++ w2). split; [eapply moved_trans; eassumption|].
    intros t2 st2 T R Mr. rewrite <- app_assoc in R. destruct (F1 (w2 ++ t2) st2) as (x2 & s2 & E2 & O2 & M2' & Mr2); [|exact R|exact Mr|].
    { left. destruct M2 as [M2 _]. rewrite M2. destruct w2 as [|c w2]; [|reflexivity]. cbn [app]. destruct T as [T|(-> & Ho & ->)]; [exact T|]. destruct x as [b|]; [|discriminate]. exfalso. exact (He eq_refl a st1 b st' eq_refl E M2). }
    destruct x2 as [a2|]; [|destruct O2]. cbn in O2. subst a2. destruct (F2 t2 s2 T) as (x3 & s3 & E3 & O3 & M3 & Mr3); [eapply moved_tail; eassumption|exact Mr2|].
    exists x3, s3. unfold bind. rewrite E2. split; [exact E3|]. split; [exact O3|]. split; [eapply moved_trans; eassumption|exact Mr3].
  - injection E as <- <-. destruct (Hm _ _ Em S0) as (w1 & M1 & F1). exists w1. split; [exact M1|]. intros t2 st2 T R Mr. destruct (F1 t2 st2) as (x2 & s2 & E2 & O2 & M2' & Mr2); [|exact R|exact Mr|].
    { left. destruct T as [T|(_ & T & _)]; [exact T|discriminate]. }
    destruct x2 as [|e2]; [destruct e as [[]| | | | | | | | | | | | | | ]; destruct O2|]. exists (Err e2), s2. unfold bind. rewrite E2. split; [reflexivity|]. split; [exact O2|]. auto.
Qed.
Lemma loc_seq {A B} st (m : M A) (f : A -> M B) : LocAt true st m -> (forall a st1, m st = (Ok a, st1) -> LocAt true st1 (f a)) -> LocAt true st (bind m f).
Proof. intros. apply loc_bind; [assumption|assumption|discriminate]. Qed.
Lemma loc_bnd {A B} (m : M A) (f : A -> M B) : Loc m -> (forall a, Loc (f a)) -> Loc (bind m f).
Proof. intros H K st. apply loc_seq; [apply H|]. intros; apply K. Qed.
(** Steps that do not move. *)
Lemma loc_still {A} h st (m : M A) : (forall x st', m st = (x, st') -> sees x st' -> p_pre st' = p_pre st /\ p_rest st' = p_rest st /\
  forall t2 st2, tails h (isok x) (p_rest st) t2 -> p_rest st2 = t2 -> mrel st st2 -> exists x2 st2', m st2 = (x2, st2') /\ outc x x2 /\ p_pre st2' = p_pre st2 /\ p_rest st2' = p_rest st2 /\ mrel st' st2') -> LocAt h st m.
Proof.
  intros H x st' E S0. destruct (H x st' E S0) as (A1 & A2 & F). exists []. split; [apply moved_refl; assumption|]. intros t2 st2 T R Mr. rewrite A2 in T. destruct (F t2 st2 T R Mr) as (x2 & st2' & E2 & O & B1 & B2 & Mr2). exists x2, st2'. split; [exact E2|]. split; [exact O|]. split; [apply moved_refl; assumption|exact Mr2].
Qed.
Lemma outc_refl {A} (x : res A) st' : sees x st' -> outc x x.
Proof. destruct x as [a|e]; [reflexivity|]. destruct e as [[]| | | | | | | | | | | | | | ]; cbn; tauto. Qed.
Lemma loc_lift {A} h st (r : res A) : LocAt h st (lift r).
Proof. apply loc_still. intros x st' E S0. injection E as <- <-. split; [reflexivity|]. split; [reflexivity|]. intros t2 st2 _ _ Mr. exists r, st2. split; [reflexivity|]. split; [eapply outc_refl, S0|auto]. Qed.
Lemma loc_ret {A} h st (a : A) : LocAt h st (ret a). Proof. exact (loc_lift h st (Ok a)). Qed.
Lemma loc_raise_exn {A} h st e : LocAt h st (@raise_exn A e). Proof. exact (loc_lift h st (Err e)). Qed.
Lemma loc_raise {A} h st k : LocAt h st (@raise A k).
Proof.
  apply loc_still. intros x st' E S0. injection E as <- <-. split; [reflexivity|]. split; [reflexivity|]. intros t2 st2 _ _ Mr. exists (Err (parse_error k st2)), st2. split; [reflexivity|].
  unfold parse_error in *. destruct (to_linecol (src st) (idx st)) as [l c]. destruct (to_linecol (src st2) (idx st2)) as [l2 c2]. destruct k; cbn in S0; try contradiction. split; [reflexivity|auto].
Qed.
Lemma loc_mark h st : LocAt h st mark.
Proof. apply loc_still. intros x st' E _. injection E as <- <-. split; [reflexivity|]. split; [reflexivity|]. intros t2 st2 _ _ _. exists (Ok tt), (set_mark st2). split; [reflexivity|]. split; [reflexivity|]. split; [reflexivity|]. split; [reflexivity|apply mrel_mark]. Qed.
Lemma loc_extract h st : LocAt h st extractM.
Proof. apply loc_still. intros x st' E _. injection E as <- <-. split; [reflexivity|]. split; [reflexivity|]. intros t2 st2 _ _ [M1 M2]. exists (Ok (extract st2)), st2. split; [reflexivity|]. split; [exact M2|]. split; [reflexivity|]. split; [reflexivity|split; assumption]. Qed.
Lemma hd_cur (st st2 : pst) : hd_error (p_rest st2) = hd_error (p_rest st) -> cur st2 = cur st /\ at_end st2 = at_end st.
Proof. unfold cur, at_end. destruct (p_rest st), (p_rest st2); cbn; intros H; try discriminate; [auto|]. injection H as ->. auto. Qed.
Lemma loc_current st : LocAt true st current.
Proof.
  apply loc_still. intros x st' E _. injection E as <- <-. split; [reflexivity|]. split; [reflexivity|]. intros t2 st2 [T|(K & _)] R Mr; [|discriminate]. rewrite <- R in T. apply hd_cur in T as [Ec _]. exists (Ok (cur st2)), st2. split; [reflexivity|]. split; [symmetry; exact Ec|auto].
Qed.
Lemma loc_end st : LocAt true st endM.
Proof.
  apply loc_still. intros x st' E _. injection E as <- <-. split; [reflexivity|]. split; [reflexivity|]. intros t2 st2 [T|(K & _)] R Mr; [|discriminate]. rewrite <- R in T. apply hd_cur in T as [_ Ec]. exists (Ok (at_end st2)), st2. split; [reflexivity|]. split; [symmetry; exact Ec|auto].
Qed.
Lemma loc_inc st : LocAt true st incM.
Proof.
  destruct st as [pre [|c r] mk].
  - apply loc_still. intros x st' E _. injection E as <- <-. split; [reflexivity|]. split; [reflexivity|]. intros t2 st2 [T|(K & _)] R Mr; [|discriminate]. destruct t2; [|discriminate T]. destruct st2 as [pre2 rest2 mk2]. cbn in R. subst rest2. exists (Ok false), (mkSt pre2 [] mk2). split; [reflexivity|]. split; [reflexivity|]. split; [reflexivity|]. split; [reflexivity|exact Mr].
  - intros x st' E _. injection E as <- <-. exists [c]. split; [split; reflexivity|]. intros t2 st2 [T|(K & _)] R Mr; [|discriminate]. destruct st2 as [pre2 rest2 mk2]. cbn in R, T. subst rest2. cbn [p_rest] in T.
    assert (M2 : moved [c] (mkSt pre2 (c :: t2) mk2) (mkSt (pre2 ++ [c]) t2 mk2)) by (split; reflexivity).
    exists (Ok (match t2 with [] => false | _ => true end)), (mkSt (pre2 ++ [c]) t2 mk2). split; [reflexivity|]. split; [destruct r, t2; try discriminate; reflexivity|]. split; [exact M2|]. eapply mrel_moved; [exact Mr| |exact M2|reflexivity|reflexivity]. split; reflexivity.
Qed.
Lemma loc_inc_exn st k : (forall c, k <> KUnexpectedChar c) -> LocAt true st (inc_exn k).
Proof.
  intros Hk x st' E S0. pose proof (loc_inc st) as L. unfold LocAt in L. unfold inc_exn in E. unfold incM in L. destruct (inc st) as [b s1] eqn:Ei. destruct b.
  - injection E as <- <-. destruct (L _ _ eq_refl I) as (w & M & F). exists w. split; [exact M|]. intros t2 st2 T R Mr. destruct (F t2 st2 T R Mr) as (x2 & s2 & E2 & O & M2 & Mr2). unfold inc_exn. destruct (inc st2) as [b2 s3]. injection E2 as <- <-. cbn in O. subst b2. exists (Ok tt), s3. split; [reflexivity|]. split; [reflexivity|]. split; assumption.
  - injection E as <- <-. exfalso. unfold parse_error in S0. destruct (to_linecol _ _) in S0. cbn in S0. destruct k; try contradiction. exact (Hk c eq_refl).
Qed.
Lemma tw_same p w t t2 : Forall (fun c => p c = true) w -> (match t with [] => True | c :: _ => p c = false end) -> hd_error t2 = hd_error t \/ t2 = [] -> take_while p (w ++ t2) = w /\ drop_while p (w ++ t2) = t2.
Proof.
  intros Hw Ht H. assert (Ht2 : match t2 with [] => True | c :: _ => p c = false end) by (destruct t2; [exact I|]; destruct H as [H|H]; [|discriminate]; destruct t; [discriminate|]; injection H as ->; exact Ht).
  induction Hw as [|c w Hc Hw IH]; cbn [app take_while drop_while].
  - destruct t2 as [|c t2]; [auto|]. cbn. rewrite Ht2. auto.
  - rewrite Hc. destruct IH as [-> ->]. auto.
Qed.
(** The scans, at the very end too. *)
Lemma adv_local p st st2 t2 : p_rest st2 = take_while p (p_rest st) ++ t2 -> hd_error t2 = hd_error (drop_while p (p_rest st)) \/ t2 = [] -> mrel st st2 ->
  take_while p (p_rest st2) = take_while p (p_rest st) /\ moved (take_while p (p_rest st)) st2 (adv_while p st2) /\ mrel (adv_while p st) (adv_while p st2).
Proof.
  intros R T Mr. destruct (tw_same p (take_while p (p_rest st)) (drop_while p (p_rest st)) t2 (take_while_all _ _) (drop_head _ _) T) as [E1 E2]. rewrite <- R in E1, E2.
  pose proof (adv_moved p st2) as M2. rewrite E1 in M2. split; [exact E1|]. split; [exact M2|]. eapply mrel_moved; [exact Mr|apply adv_moved|exact M2|reflexivity|reflexivity].
Qed.
Definition scan (p : char -> bool) : M str := fun st => (Ok (take_while p (p_rest st)), adv_while p st).
Lemma loc_scan h p st : LocAt h st (scan p).
Proof.
  intros x st' E _. injection E as <- <-. exists (take_while p (p_rest st)). split; [apply adv_moved|]. intros t2 st2 T R Mr. destruct (adv_local p st st2 t2 R) as (E1 & M2 & Mr2); [destruct T as [T|(_ & _ & T)]; auto|exact Mr|].
  exists (Ok (take_while p (p_rest st2))), (adv_while p st2). split; [reflexivity|]. split; [symmetry; exact E1|auto].
Qed.
Lemma loc_adv h p st : LocAt h st (adv_whileM p).
Proof.
  intros x st' E _. injection E as <- <-. exists (take_while p (p_rest st)). split; [apply adv_moved|]. intros t2 st2 T R Mr. destruct (adv_local p st st2 t2 R) as (E1 & M2 & Mr2); [destruct T as [T|(_ & _ & T)]; auto|exact Mr|].
  exists (Ok tt), (adv_while p st2). split; [reflexivity|]. split; [reflexivity|auto].
Qed.
Lemma since_scan {A} p (f : str -> M A) st : (a <- idxM ;; adv_whileM p ;;; x <- since a ;; f x) st = bind (scan p) f st.
Proof.
  unfold bind, idxM, adv_whileM, since, scan. cbn [adv_while p_pre]. unfold idx. rewrite skipn_app, skipn_all, Nat.sub_diag. reflexivity.
Qed.
Lemma loc_ext {A} h st (m m' : M A) : (forall s, m s = m' s) -> LocAt h st m' -> LocAt h st m.
Proof. intros E H x st' Q S0. rewrite E in Q. destruct (H x st' Q S0) as (w & M & F). exists w. split; [exact M|]. intros t2 st2 T R Mr. rewrite E. apply (F t2); assumption. Qed.

Ltac loc := repeat first
  [ apply loc_lift | apply loc_ret | apply loc_raise_exn | apply loc_raise | apply loc_mark | apply loc_extract | apply loc_current | apply loc_end | apply loc_inc
  | apply loc_inc_exn; discriminate | apply loc_scan | apply loc_adv
  | apply loc_seq; [|intros ? ? _]
  | match goal with |- LocAt _ _ (if ?b then _ else _) => destruct b | |- LocAt _ _ (let '(_, _) := ?x in _) => destruct x | |- LocAt _ _ (match ?x with _ => _ end) => destruct x end ].

(** * Strings *)
Lemma inc_n_ready (w : str) : forall pre y z mk, inc_n (List.length w) (mkSt pre (w ++ y :: z) mk) = (true, mkSt (pre ++ w) (y :: z) mk).
Proof.
  induction w as [|c w IH]; intros pre y z mk; cbn [List.length inc_n app]; [rewrite app_nil_r; reflexivity|].
  unfold inc. cbn [p_rest p_pre p_mark]. replace (match w ++ y :: z with [] => false | _ => true end) with true by (destruct w; reflexivity). cbv beta iota. rewrite IH, <- app_assoc. reflexivity.
Qed.
Lemma unicode_same (b : bool) c ex y z y2 z2 pre mk pre2 mk2 v : List.length ex = (if b then 8 else 4) ->
  fst (peek_unicode b (mkSt pre (c :: ex ++ y :: z) mk)) = Ok v -> fst (peek_unicode b (mkSt pre2 (c :: ex ++ y2 :: z2) mk2)) = Ok v.
Proof.
  intros Hl. unfold peek_unicode, restoring_all. unfold bind, current, incM, mark, set_mark, extractM, inc_nM, ret. cbn [cur p_rest p_pre p_mark]. destruct (negb _); [discriminate|]. unfold inc. cbn [p_rest p_pre p_mark]. rewrite <- Hl.
  rewrite !inc_n_ready. cbn [negb]. unfold extract. cbn [p_pre p_mark]. rewrite !skipn_length_app.
  destruct (match ex with [] => _ | _ => _ end); [auto|]. destruct (py_int ex 16); [|auto]. destruct (_ && _)%bool; auto.
Qed.
Lemma inc_n_short (w : str) : forall pre mk, w <> [] -> fst (inc_n (List.length w) (mkSt pre w mk)) = false.
Proof.
  induction w as [|c w IH]; intros pre mk H; [congruence|]. cbn [List.length inc_n]. unfold inc. cbn [p_rest p_pre p_mark]. destruct w as [|d w]; [reflexivity|]. apply (IH (pre ++ [c]) mk). discriminate.
Qed.
Lemma unicode_more (b : bool) c ex pre mk v : List.length ex = (if b then 8 else 4) -> fst (peek_unicode b (mkSt pre (c :: ex) mk)) = Ok (Some v) -> False.
Proof.
  intros Hl. unfold peek_unicode, restoring_all. unfold bind, current, incM, mark, set_mark, extractM, inc_nM, ret. cbn [cur p_rest p_pre p_mark]. destruct (negb _); [discriminate|]. unfold inc. cbn [p_rest p_pre p_mark]. rewrite <- Hl.
  pose proof (inc_n_short ex (pre ++ [c]) (List.length (pre ++ [c]))) as S0. destruct (inc_n _ _) as [b0 s]. cbn [fst] in S0. rewrite S0 by (intros ->; destruct b; discriminate). discriminate.
Qed.
Lemma unicode_back b st : snd (peek_unicode b st) = st. Proof. unfold peek_unicode, restoring_all. destruct (bind _ _ st). reflexivity. Qed.
Lemma unicode_err b st e st' : peek_unicode b st = (Err e, st') -> ~ sees (Err e : res str) st'.
Proof.
  unfold peek_unicode, restoring_all. match goal with |- (let '(r, _) := ?m st in _) = _ -> _ => destruct (m st) as [r0 st0] eqn:E end. intros H. injection H as -> _.
  unfold bind, current in E. destruct (negb _).
  { unfold raise in E. injection E as <- _. unfold parse_error. destruct (to_linecol _ _). intros S0. exact S0. }
  unfold incM in E. destruct (inc st). cbn [mark] in E. unfold inc_nM in E. destruct (inc_n _ _) as [[] ?]; cbn [negb] in E; [|discriminate]. unfold extractM in E. destruct (match extract _ with [] => _ | _ => _ end); [discriminate|]. destruct (py_int _ _); [|discriminate]. destruct (_ && _)%bool; discriminate.
Qed.
Lemma loc_escaped ml st : LocAt true st (parse_escaped_char ml).
Proof.
  unfold parse_escaped_char. apply loc_seq; [apply loc_current|]. intros c st1 E. injection E as <- <-. destruct (ml && _)%bool.
  - apply loc_seq; [|intros ? ? _; loc]. intros x st' E S0. unfold skip_ws_exn in E. destruct (_ && _)%bool eqn:Ee.
    { injection E as <- <-. unfold parse_error in S0. destruct (to_linecol _ _) in S0. destruct S0. }
    injection E as <- <-. exists (take_while is_ws (p_rest st)). split; [apply adv_moved|]. intros t2 st2 T R Mr. destruct T as [T|(T & _)]; [|discriminate]. destruct (adv_local is_ws st st2 t2 R) as (E1 & M2 & Mr2); [left; exact T|exact Mr|].
    exists (Ok (take_while is_ws (p_rest st2))), (adv_while is_ws st2). split; [|split; [symmetry; exact E1|auto]]. unfold skip_ws_exn.
    assert (A1 : at_end (adv_while is_ws st2) = at_end (adv_while is_ws st)). { apply (hd_cur (adv_while is_ws st)). rewrite (moved_tail _ _ _ _ M2 R). exact T. }
    assert (A2 : at_end st2 = at_end st). { unfold at_end. rewrite R. destruct (take_while is_ws (p_rest st)) as [|d w] eqn:Ew; [|destruct (p_rest st); [discriminate|reflexivity]]. cbn [app]. assert (Ed : drop_while is_ws (p_rest st) = p_rest st) by (rewrite <- (take_drop is_ws (p_rest st)) at 2; rewrite Ew; reflexivity). cbn [adv_while p_rest] in T. rewrite Ed in T. destruct t2, (p_rest st); try discriminate; reflexivity. }
    rewrite A1, A2, Ee. reflexivity.
  - destruct (escaped_value _); [loc|]. destruct (_ || _)%bool; [|loc].
    generalize (cur st =? 85)%N. intros b x st' E S0. unfold bind in E. destruct (peek_unicode b st) as [[u|e] s1] eqn:Eu.
    2:{ injection E as <- <-. exfalso. revert S0. eapply unicode_err, Eu. }
    destruct u as [[v ex]|]; [|injection E as <- _; unfold parse_error in S0; destruct (to_linecol _ _) in S0; destruct S0].
    pose proof (unicode_len _ _ _ _ _ Eu) as Hl. pose proof (unicode_rest _ _ _ _ _ Eu) as (-> & r & Hr & _). unfold inc_nM in E. destruct (inc_n _ st) as [b5 s5] eqn:En. injection E as <- <-.
    change (S (List.length ex)) with (List.length (cur st :: ex)) in En. pose proof (inc_n_full _ _ _ _ r En Hr) as M. exists (cur st :: ex). split; [exact M|]. intros t2 st2 T R Mr. destruct T as [T|(T & _)]; [|discriminate].
    pose proof (moved_tail _ _ _ _ M Hr) as Et. rewrite Et in T. apply (f_equal fst) in Eu. destruct st as [pre rest mk]. cbn [p_rest] in Hr. set (c := cur (mkSt pre rest mk)) in *. clearbody c. subst rest.
    destruct r as [|y r]; [rewrite app_nil_r in Eu; exfalso; eapply unicode_more; eassumption|]. destruct t2 as [|y2 r2]; [discriminate|]. destruct st2 as [pre2 rest2 mk2]. cbn [p_rest] in R. subst rest2. cbn [app] in *.
    pose proof (unicode_same b c ex y r y2 r2 pre mk pre2 mk2 _ Hl Eu) as Eu2. unfold bind. assert (Es : peek_unicode b (mkSt pre2 (c :: ex ++ y2 :: r2) mk2) = (Ok (Some (v, ex)), mkSt pre2 (c :: ex ++ y2 :: r2) mk2)).
    { rewrite (surjective_pairing (peek_unicode _ _)), Eu2, unicode_back. reflexivity. }
    rewrite Es. unfold inc_nM. pose proof (inc_n_ready (c :: ex) pre2 y2 r2 mk2) as En2. cbn [List.length app] in En2. rewrite En2. assert (M2 : moved (c :: ex) (mkSt pre2 (c :: ex ++ y2 :: r2) mk2) (mkSt (pre2 ++ c :: ex) (y2 :: r2) mk2)) by (split; reflexivity).
    exists (Ok [v]), (mkSt (pre2 ++ c :: ex) (y2 :: r2) mk2). split; [reflexivity|]. split; [reflexivity|]. split; [exact M2|]. eapply mrel_moved; [exact Mr|exact M|exact M2| |reflexivity].
    pose proof (inc_n_ready (c :: ex) pre y r mk) as En1. cbn [List.length app] in En, En1. rewrite En1 in En. injection En as _ <-. reflexivity.
Qed.
Lemma sees_not {A B} (x : res A) (k : pkind) st (y : res B) : (forall c, k <> KUnexpectedChar c) -> y = Err (parse_error k st) -> sees y st -> False.
Proof. intros Hk -> S0. unfold parse_error in S0. destruct (to_linecol _ _) in S0. destruct k; try contradiction. exact (Hk c eq_refl). Qed.
Definition eats {A} (st : pst) (m : M A) : Prop := forall a st', m st = (Ok a, st') -> p_rest st <> p_rest st'.
Lemma eats_moved {A} (m : M A) st : (forall a st', m st = (Ok a, st') -> exists w, moved w st st' /\ w <> []) -> eats st m.
Proof. intros H a st' E K. destruct (H a st' E) as (w & [M _] & Hw). rewrite M in K. apply (f_equal (@List.length _)) in K. rewrite app_length in K. destruct w; [congruence|cbn in K; lia]. Qed.
Lemma unit_value d : st_unit d <> chNUL /\ st_value d <> []. Proof. destruct d; split; discriminate. Qed.
Lemma loc_bind2 {A B} st (m : M A) (f : A -> M B) : LocAt false st m -> (forall a st1, m st = (Ok a, st1) -> LocAt false st1 (f a)) -> LocAt false st (bind m f).
Proof.
  intros Hm Hf x st' E S0. unfold bind in E. destruct (m st) as [[a|e] st1] eqn:Em.
  - destruct (Hm _ _ Em I) as (w1 & M1 & F1). destruct (Hf a st1 eq_refl _ _ E S0) as (w2 & M2 & F2). exists (w1 ++ w2). split; [eapply moved_trans; eassumption|].
    intros t2 st2 T R Mr. rewrite <- app_assoc in R. destruct (F1 (w2 ++ t2) st2) as (x2 & s2 & E2 & O2 & M2' & Mr2); [|exact R|exact Mr|].
    { destruct M2 as [M2 _]. rewrite M2. destruct w2 as [|c w2]; [|left; reflexivity]. cbn [app]. destruct T as [T|(_ & Ho & ->)]; [left; exact T|right; auto]. }
    destruct x2 as [a2|]; [|destruct O2]. cbn in O2. subst a2. destruct (F2 t2 s2 T) as (x3 & s3 & E3 & O3 & M3 & Mr3); [eapply moved_tail; eassumption|exact Mr2|].
    exists x3, s3. unfold bind. rewrite E2. split; [exact E3|]. split; [exact O3|]. split; [eapply moved_trans; eassumption|exact Mr3].
  - assert (L : LocAt true st (bind m f)); [|destruct (L x st') as (w & M & F); [unfold bind; rewrite Em; exact E|exact S0|]].
    { apply loc_seq; [apply loc_weak, Hm|]. intros a0 s0 K. rewrite Em in K. discriminate. }
    exists w. split; [exact M|]. intros t2 st2 T. apply F. injection E as <- <-. destruct T as [T|(_ & T & _)]; [left; exact T|discriminate].
Qed.
Definition step : M unit := fun st => (Ok tt, snd (inc st)).
Lemma inc_step {A} (m : M A) st : (incM ;;; m) st = bind step (fun _ => m) st.
Proof. unfold bind, incM, step. destruct (inc st). reflexivity. Qed.
Lemma loc_step h st : LocAt h st step.
Proof.
  destruct st as [pre [|c r] mk].
  - apply loc_still. intros x st' E _. injection E as <- <-. split; [reflexivity|]. split; [reflexivity|]. intros t2 st2 T R Mr. assert (t2 = []) as -> by (destruct T as [T|(_ & _ & T)]; [destruct t2; [reflexivity|discriminate]|exact T]). destruct st2 as [pre2 rest2 mk2]. cbn in R. subst rest2. exists (Ok tt), (mkSt pre2 [] mk2). split; [reflexivity|]. split; [reflexivity|]. split; [reflexivity|]. split; [reflexivity|exact Mr].
  - intros x st' E _. injection E as <- <-. exists [c]. split; [split; reflexivity|]. intros t2 st2 T R Mr. destruct st2 as [pre2 rest2 mk2]. cbn in R. subst rest2.
    assert (M2 : moved [c] (mkSt pre2 (c :: t2) mk2) (mkSt (pre2 ++ [c]) t2 mk2)) by (split; reflexivity).
    exists (Ok tt), (mkSt (pre2 ++ [c]) t2 mk2). split; [reflexivity|]. split; [reflexivity|]. split; [exact M2|]. eapply mrel_moved; [exact Mr| |exact M2|reflexivity|reflexivity]. split; reflexivity.
Qed.
(** A look at the next character, when something is read afterwards. *)
Lemma loc_look {A} st (f : char -> M A) : LocAt false st (f (cur st)) -> eats st (f (cur st)) -> LocAt false st (bind current f).
Proof.
  intros H He. apply loc_bind; [apply loc_current| |].
  - intros a st1 E. injection E as <- <-. exact H.
  - intros _ a st1 b st' E Q. injection E as <- <-. exact (He b st' Q).
Qed.
Lemma loop_eats n d v e st : (e = true -> st_basic d = true) -> eats st (string_loop n d v e).
Proof.
  intros He. apply eats_moved. intros a st' E. apply string_loop_gram in E as (b & M & _); [|exact He]. exists (b ++ st_value d). split; [exact M|]. destruct (unit_value d) as [_ K]. destruct b; [exact K|discriminate].
Qed.
Lemma loop_eats0 n d v st : eats st (string_loop n d v false).
Proof. apply loop_eats. discriminate. Qed.
Lemma eats_eq {A} st (m m' : M A) : m st = m' st -> eats st m' -> eats st m.
Proof. intros E H a st' Q. rewrite E in Q. exact (H a st' Q). Qed.
Lemma loc_string_loop n : forall d v e st, (e = true -> st_basic d = true) -> LocAt false st (string_loop n d v e).
Proof.
  induction n as [|n IH]; intros d v e st He; [apply loc_raise_exn|]. pose proof (loop_eats (S n) d v e st He) as Et. cbn [string_loop] in *. apply loc_look; [|eapply eats_eq; [|exact Et]; reflexivity]. clear Et. cbv beta.
  destruct (negb e && bad_string_char _ _)%bool; [apply loc_raise|]. destruct (negb e && _)%bool.
  - apply loc_bind2; [apply loc_extract|]. intros o st1 E. injection E as <- <-. destruct (st_multiline d).
    + set (p := fun x => (x =? st_unit d)%N). eapply loc_ext with (m' := bind (scan p) (fun close => if Nat.ltb (List.length close) 3 then string_loop n d (v ++ close) false else if Nat.eqb (List.length close) 3 then ret (SStr d v (extract st)) else if Nat.leb 6 (List.length close) then (c <- current ;; raise (KInvalidCharInString c)) else ret (SStr d (v ++ firstn (List.length close - 3) close) (extract st ++ firstn (List.length close - 3) close)))); [intros s; reflexivity|]. apply loc_bind2; [apply loc_scan|]. intros close st1 E. destruct (Nat.ltb _ _); [apply IH; discriminate|]. destruct (Nat.eqb _ _); [apply loc_ret|]. destruct (Nat.leb _ _); [|apply loc_ret].
      intros x st' Q S0. unfold bind, current, raise in Q. injection Q as <- <-. exfalso. unfold parse_error in S0. destruct (to_linecol _ _) in S0. exact S0.
    + eapply loc_ext; [intros s; apply inc_step|]. apply loc_bind2; [apply loc_step|]. intros. apply loc_ret.
  - destruct (st_basic d && e)%bool eqn:Eb.
    + apply loc_bind; [apply loc_escaped|intros; apply IH; discriminate|]. intros _ a st1 b st' _ Q. exact (loop_eats0 _ _ _ _ b st' Q).
    + assert (e = false) as -> by (destruct e; [rewrite He in Eb by reflexivity; discriminate|reflexivity]). destruct (st_basic d && (cur st =? chBSL)%N)%bool eqn:Eb2.
      * assert (Hb : true = true -> st_basic d = true) by (intros _; destruct (st_basic d); [reflexivity|discriminate]). apply loc_bind; [apply loc_inc_exn; discriminate|intros; apply IH, Hb|]. intros _ a st1 b st' _ Q. exact (loop_eats _ _ _ _ _ Hb b st' Q).
      * apply loc_bind; [apply loc_inc_exn; discriminate|intros; apply IH; discriminate|]. intros _ a st1 b st' _ Q. exact (loop_eats0 _ _ _ _ b st' Q).
Qed.
(** Errors that an array does not take for its end. *)
Definition Unseen {A} (m : M A) : Prop := forall st e st', m st = (Err e, st') -> ~ sees (Err e : res A) st'.
Lemma un_bind {A B} (m : M A) (f : A -> M B) : Unseen m -> (forall a, Unseen (f a)) -> Unseen (bind m f).
Proof. intros Hm Hf st e st' E. unfold bind in E. destruct (m st) as [[a|e1] st1] eqn:Em; [exact (Hf a _ _ _ E)|]. injection E as -> ->. exact (Hm _ _ _ Em). Qed.
Lemma un_ok {A} (m : M A) : (forall st e, fst (m st) <> Err e) -> Unseen m.
Proof. intros H st e st' E. exfalso. apply (H st e). rewrite E. reflexivity. Qed.
Lemma un_raise {A} k : (forall c, k <> KUnexpectedChar c) -> Unseen (@raise A k).
Proof. intros Hk st e st' E. injection E as <- <-. unfold parse_error. destruct (to_linecol _ _). destruct k; cbn; try tauto. exfalso. exact (Hk c eq_refl). Qed.
Lemma un_raise_exn {A} e : (forall k l c, e <> ParseErr k l c) -> Unseen (@raise_exn A e).
Proof. intros Hk st e0 st' E. injection E as <- <-. destruct e as [[]| | | | | | | | | | | | | | ]; cbn; try tauto; exfalso; eapply Hk; reflexivity. Qed.
Lemma un_inc_exn k : (forall c, k <> KUnexpectedChar c) -> Unseen (inc_exn k).
Proof. intros Hk st e st' E. unfold inc_exn in E. destruct (inc st) as [[] s]; [discriminate|]. exact (un_raise (A := unit) k Hk s e st' E). Qed.
Ltac un := repeat first
  [ apply un_bind; [|intros ?] | apply un_ok; intros ? ? ?; discriminate | apply un_raise; discriminate | apply un_raise_exn; discriminate | apply un_inc_exn; discriminate
  | match goal with |- Unseen (if ?b then _ else _) => destruct b | |- Unseen (match ?x with _ => _ end) => destruct x end ].
Lemma un_inc : Unseen incM.
Proof. apply un_ok; intros st e0 E; unfold incM in E; destruct (inc st); discriminate. Qed.
Lemma un_inc_n n : Unseen (inc_nM n).
Proof. apply un_ok; intros st e0 E; unfold inc_nM in E; destruct (inc_n n st); discriminate. Qed.
Lemma un_escaped ml : Unseen (parse_escaped_char ml).
Proof.
  unfold parse_escaped_char. un.
  - intros st e st' E. unfold skip_ws_exn in E. destruct (_ && _)%bool; [|discriminate]. injection E as <- <-. unfold parse_error. destruct (to_linecol _ _). cbn. tauto.
  - intros st e st' E. eapply unicode_err, E.
  - apply un_inc_n.
Qed.
Opaque parse_escaped_char.
Lemma un_string_loop n : forall d v e, Unseen (string_loop n d v e).
Proof.
  induction n as [|n IH]; intros d v e; cbn [string_loop]; un; try apply IH; try apply un_escaped; try apply un_inc.
Qed.
Transparent parse_escaped_char.
(** What ends with something read. *)
Definition LocF {A} (st : pst) (m : M A) : Prop := LocAt false st m /\ eats st m.
Lemma locf_bind {A B} st (m : M A) (f : A -> M B) : LocAt true st m -> (forall a st1, m st = (Ok a, st1) -> LocF st1 (f a)) -> LocF st (bind m f).
Proof.
  intros Hm Hf. split.
  - apply loc_bind; [exact Hm|intros a st1 E; apply (Hf a st1 E)|]. intros _ a st1 b st' E Q. exact (proj2 (Hf a st1 E) b st' Q).
  - apply eats_moved. intros b st' E. unfold bind in E. destruct (m st) as [[a|e] st1] eqn:Em; [|discriminate]. destruct (Hm _ _ Em I) as (w1 & M1 & _). destruct (Hf a st1 eq_refl) as [L T]. destruct (L _ _ E I) as (w2 & M2 & _). exists (w1 ++ w2). split; [eapply moved_trans; eassumption|]. intros K. apply app_eq_nil in K as [_ ->]. apply (T b st' E). destruct M2 as [M2 _]. exact M2.
Qed.
(** The other way round: something read first, nothing looked at afterwards. *)
Lemma locf_then {A B} st (m : M A) (f : A -> M B) : LocF st m -> (forall a st1, m st = (Ok a, st1) -> LocAt false st1 (f a)) -> LocF st (bind m f).
Proof.
  intros [Hm He] Hf. split; [apply loc_bind2; assumption|]. apply eats_moved. intros b st' E. unfold bind in E. destruct (m st) as [[a|e] st1] eqn:Em; [|discriminate]. destruct (Hm _ _ Em I) as (w1 & M1 & _). destruct (Hf a st1 eq_refl _ _ E I) as (w2 & M2 & _). exists (w1 ++ w2). split; [eapply moved_trans; eassumption|]. intros K. apply app_eq_nil in K as [-> _]. apply (He a st1 Em). destruct M1 as [M1 _]. exact M1.
Qed.
Lemma locf_ext {A} st (m m' : M A) : (forall s, m s = m' s) -> LocF st m' -> LocF st m.
Proof. intros E [L T]. split; [eapply loc_ext; eassumption|]. intros a st' Q. rewrite E in Q. exact (T a st' Q). Qed.
Lemma locf_raise {A} st k : LocF st (@raise A k).
Proof. split; [apply loc_raise|]. intros a st' E. discriminate. Qed.
Lemma locf_raise_exn {A} st e : LocF st (@raise_exn A e).
Proof. split; [apply loc_raise_exn|]. intros a st' E. discriminate. Qed.
Lemma locf_loop n d v e st : (e = true -> st_basic d = true) -> LocF st (string_loop n d v e).
Proof. intros He. split; [apply loc_string_loop, He|apply loop_eats, He]. Qed.
Lemma locf_look {A} st (f : char -> M A) : LocF st (f (cur st)) -> LocF st (bind current f).
Proof. intros H. apply locf_bind; [apply loc_current|]. intros a st1 E. injection E as <- <-. exact H. Qed.
Lemma locf_step {A} st (a : A) : p_rest st <> [] -> LocF st (incM ;;; ret a).
Proof.
  intros H. eapply locf_ext; [intros s; apply inc_step|]. split; [apply loc_bind2; [apply loc_step|intros; apply loc_ret]|]. apply eats_moved. intros b st' E. unfold bind, step in E. injection E as _ <-. destruct st as [pre [|c r] mk]; [destruct H; reflexivity|]. exists [c]. split; [split; reflexivity|discriminate].
Qed.
Lemma cur_rest st c : cur st = c -> c <> chNUL -> p_rest st <> [].
Proof. unfold cur. destruct (p_rest st); [congruence|discriminate]. Qed.
Lemma loop_three n d v st a st' : st_multiline d = true -> string_loop n d v false st = (Ok a, st') -> exists w c1 c2 c3, moved (c1 :: c2 :: c3 :: w) st st'.
Proof.
  intros Hd E. apply string_loop_gram in E as (b & M & _); [|discriminate]. assert (Hl : 3 <= List.length (b ++ st_value d)) by (rewrite app_length; destruct d; try discriminate; cbn; lia).
  destruct (b ++ st_value d) as [|c1 [|c2 [|c3 w]]]; cbn in Hl; try lia. eauto.
Qed.
Lemma skip_rest st : restoring (b <- incM ;; c2 <- current ;; ret (if b then Some c2 else None)) st = (Ok (match p_rest st with _ :: c2 :: _ => Some c2 | _ => None end), st).
Proof. destruct st as [pre [|c [|d r]] mk]; reflexivity. Qed.
Lemma inc2 pre c1 d2 r mk : inc_n_exn 2 KUnexpectedEof (mkSt pre (c1 :: d2 :: r) mk) = match r with [] => (Err (parse_error KUnexpectedEof (mkSt (pre ++ [c1; d2]) [] mk)), mkSt (pre ++ [c1; d2]) [] mk) | _ => (Ok tt, mkSt (pre ++ [c1; d2]) r mk) end.
Proof. destruct r; cbn; rewrite <- app_assoc; reflexivity. Qed.
Lemma locf_skip_loop n d st : st_multiline d = true -> LocF st (skip_first_newline ;;; string_loop n d [] false).
Proof.
  intros Hd. set (lp := string_loop n d [] false). assert (HL : forall s, LocF s lp) by (intros; apply locf_loop; discriminate).
  eapply locf_ext with (m' := c <- current ;; if (c =? chLF)%N then (inc_exn KUnexpectedEof ;;; lp) else if (c =? chCR)%N then (fun s => match p_rest s with _ :: d2 :: _ => if (d2 =? chLF)%N then (inc_n_exn 2 KUnexpectedEof ;;; lp) s else lp s | _ => lp s end) else lp).
  { intros s. change ((bind (if (cur s =? chLF)%N then inc_exn KUnexpectedEof else (two <- restoring (b <- incM ;; c2 <- current ;; ret (if b then Some c2 else None)) ;; if (cur s =? chCR)%N && (match two with Some c2 => (c2 =? chLF)%N | None => false end) then inc_n_exn 2 KUnexpectedEof else ret tt)) (fun _ => lp)) s = (if (cur s =? chLF)%N then (inc_exn KUnexpectedEof ;;; lp) else if (cur s =? chCR)%N then (fun s => match p_rest s with _ :: d2 :: _ => if (d2 =? chLF)%N then (inc_n_exn 2 KUnexpectedEof ;;; lp) s else lp s | _ => lp s end) else lp) s).
    destruct (cur s =? chLF)%N; [reflexivity|]. unfold bind at 1. unfold bind at 1. rewrite skip_rest.
    destruct (cur s =? chCR)%N; [|reflexivity]. cbn [andb]. destruct (p_rest s) as [|c1 [|d2 r]]; [reflexivity|reflexivity|]. destruct (d2 =? chLF)%N; reflexivity. }
  apply locf_look. destruct (cur st =? chLF)%N; [apply locf_bind; [apply loc_inc_exn; discriminate|intros; apply HL]|]. destruct (cur st =? chCR)%N; [|apply HL].
  destruct st as [pre rest mk]. assert (Unl : Unseen lp) by apply un_string_loop. split.
  - intros x st' E S0. cbn [p_rest] in E. destruct x as [a|e].
    2:{ exfalso. revert S0. destruct rest as [|c1 [|d2 r]]; [eapply Unl, E|eapply Unl, E|]. destruct (d2 =? chLF)%N; [|eapply Unl, E]. unfold bind in E. destruct (inc_n_exn 2 KUnexpectedEof _) as [[u|e1] s1] eqn:En; [eapply Unl, E|]. injection E as -> ->. revert En. apply (ltac:(cbn [inc_n_exn]; un) : Unseen (inc_n_exn 2 KUnexpectedEof)). }
    destruct rest as [|c1 [|d2 r]].
    + destruct (loop_three _ _ _ _ _ _ Hd E) as (w & a1 & a2 & a3 & [M _]). discriminate.
    + destruct (loop_three _ _ _ _ _ _ Hd E) as (w & a1 & a2 & a3 & [M _]). discriminate.
    + destruct (d2 =? chLF)%N eqn:Ed.
      * apply N.eqb_eq in Ed. subst d2. unfold bind in E. rewrite inc2 in E. destruct r as [|z r]; [discriminate|]. cbv beta iota in E. destruct (proj1 (HL _) _ _ E I) as (w & M & F). exists (c1 :: chLF :: w). split.
        { destruct M as [M1 M2]. cbn [p_rest p_pre] in *. split; cbn [p_rest p_pre app]; [rewrite M1; reflexivity|rewrite M2, <- !app_assoc; reflexivity]. }
        intros t2 st2 T R Mr. destruct st2 as [pre2 rest2 mk2]. cbn [p_rest] in R. subst rest2. cbn [app p_rest]. change (chLF =? chLF)%N with true. cbv iota. unfold bind. rewrite inc2.
        destruct (w ++ t2) as [|z2 r2] eqn:Ew.
        { exfalso. apply app_eq_nil in Ew as [-> _]. destruct (loop_three _ _ _ _ _ _ Hd E) as (w & a1 & a2 & a3 & M3). destruct M as [M _], M3 as [M3 _]. rewrite M in M3. apply (f_equal (@List.length _)) in M3. cbn [app List.length] in M3. rewrite app_length in M3. lia. }
        cbv beta iota. destruct (F t2 (mkSt (pre2 ++ [c1; chLF]) (z2 :: r2) mk2) T) as (x2 & s2 & E2 & O2 & M2 & Mr2).
        { cbn [p_rest]. symmetry. exact Ew. }
        { eapply (mrel_moved [c1; chLF]); [exact Mr| | |reflexivity|reflexivity]; split; cbn [p_rest p_pre app]; rewrite ?Ew; reflexivity. }
        exists x2, s2. split; [exact E2|]. split; [exact O2|]. split; [|exact Mr2]. destruct M2 as [A1 A2]. cbn [p_rest p_pre] in *. split; cbn [p_rest p_pre app]; [congruence|rewrite A2, <- !app_assoc; reflexivity].
      * destruct (proj1 (HL _) _ _ E I) as (w & M & F). destruct (loop_three _ _ _ _ _ _ Hd E) as (w3 & a1 & a2 & a3 & M3).
        assert (w = a1 :: a2 :: a3 :: w3). { destruct M as [A _], M3 as [B _]. rewrite A in B. apply app_inv_tail in B. exact B. } subst w. exists (a1 :: a2 :: a3 :: w3). split; [exact M|]. destruct M3 as [A _]. injection A as -> -> A. intros t2 st2 T R Mr. cbn [app] in R. rewrite R. rewrite Ed. destruct (F t2 st2 T) as (x2 & s2 & E2 & O2); [exact R|exact Mr|]. exists x2, s2. split; [exact E2|exact O2].
  - intros a st' E. cbn [p_rest] in *. destruct rest as [|c1 [|d2 r]]; [exact (proj2 (HL _) _ _ E)|exact (proj2 (HL _) _ _ E)|]. destruct (d2 =? chLF)%N; [|exact (proj2 (HL _) _ _ E)].
    unfold bind in E. rewrite inc2 in E. destruct r as [|z r]; [discriminate|]. cbv beta iota in E. destruct (loop_three _ _ _ _ _ _ Hd E) as (w & a1 & a2 & a3 & [M _]). cbn [p_rest] in M. rewrite M. intros K. apply (f_equal (@List.length _)) in K. cbn in K. rewrite app_length in K. lia.
Qed.
Lemma locf_string n d st : LocF st (parse_string n d).
Proof.
  unfold parse_string. apply locf_look. destruct (unit_value d) as [Hu _]. destruct (cur st =? st_unit d)%N eqn:Ec; cbn [negb]; [|apply locf_raise].
  apply locf_bind; [apply loc_inc_exn; discriminate|]. intros _ st1 _. apply locf_look.
  assert (HC : forall d s, LocF s (mark ;;; (if st_multiline d then skip_first_newline else ret tt) ;;; string_loop n d [] false)).
  { intros d0 s. apply locf_bind; [apply loc_mark|]. intros _ s1 _. destruct (st_multiline d0) eqn:Em; [apply locf_skip_loop, Em|]. eapply locf_ext with (m' := string_loop n d0 [] false); [intros; reflexivity|]. apply locf_loop. discriminate. }
  destruct (cur st1 =? st_unit d)%N eqn:Ec1.
  2:{ eapply locf_ext; [intros s; reflexivity|]. apply HC. }
  apply N.eqb_eq in Ec1. pose proof (cur_rest _ _ Ec1 Hu) as Hne.
  set (cont := fun c : char => if negb (c =? st_unit d)%N then ret (SStr d [] []) else (inc_exn KUnexpectedEof ;;; (mark ;;; (if st_multiline (st_toggle d) then skip_first_newline else ret tt) ;;; string_loop n (st_toggle d) [] false))).
  eapply locf_ext with (m' := step ;;; c <- current ;; cont c).
  { assert (K : (chNUL =? st_unit d)%N = false) by (apply N.eqb_neq; congruence).
    intros s. unfold cont. destruct s as [pre0 [|c [|c2 r]] mk0]; unfold step, bind, incM, current, inc, cur, ret; cbn [p_rest p_pre p_mark negb orb snd]; rewrite ?K; [reflexivity|reflexivity|]. destruct (c2 =? st_unit d)%N; cbn [negb]; [|reflexivity]. destruct (inc_exn _ _) as [[u|e] s1]; reflexivity. }
  assert (LC : forall s, LocAt false s (c <- current ;; cont c)).
  { intros s. unfold cont. destruct (cur s =? st_unit d)%N eqn:Es.
    - apply locf_look. rewrite Es. cbn [negb]. apply locf_bind; [apply loc_inc_exn; discriminate|]. intros. apply HC.
    - apply loc_still. intros x st' E _. unfold bind, current in E. rewrite Es in E. cbn [negb] in E. injection E as <- <-. split; [reflexivity|]. split; [reflexivity|]. intros t2 st2 T R Mr. exists (Ok (SStr d [] [])), st2. split; [|split; [reflexivity|auto]].
      unfold bind, current. assert (K : (cur st2 =? st_unit d)%N = false); [|rewrite K; reflexivity]. destruct T as [T|(_ & _ & ->)]; [rewrite <- R in T; apply hd_cur in T as [-> _]; exact Es|]. unfold cur. rewrite R. apply N.eqb_neq. congruence. }
  split; [apply loc_bind2; [apply loc_step|intros; apply LC]|]. apply eats_moved. intros b st' E. unfold bind at 1, step in E. destruct (LC _ _ _ E I) as (w & M & _). destruct st1 as [pre1 [|c r] mk1]; [destruct Hne; reflexivity|]. exists ([c] ++ w). split; [|discriminate]. eapply moved_trans; [|exact M]. split; reflexivity.
Qed.
(** * Keys and separators *)
Lemma loc_string n d st : LocAt true st (parse_string n d). Proof. apply loc_weak, locf_string. Qed.
Opaque parse_string.
Lemma loc_key n : forall st, LocAt true st (parse_key n).
Proof.
  induction n as [|n IH]; intros st; cbn [parse_key]; loc; try apply loc_string; try apply IH.
Qed.
Lemma loc_sep_loop (b : bool) st : LocAt true st (fun st => sep_loop (p_rest st) (p_pre st) (p_mark st) b).
Proof.
  destruct st as [pre rest mk]. revert pre b. induction rest as [|c r IH]; intros pre b x st' E S0; cbn [sep_loop p_rest p_pre p_mark] in E.
  - injection E as <- <-. exists []. split; [split; [reflexivity|rewrite app_nil_r; reflexivity]|]. intros t2 st2 [T|(K & _)] R Mr; [|discriminate]. destruct t2; [|discriminate]. cbn [app] in R. exists (Ok b), (mkSt (p_pre st2) [] (p_mark st2)). rewrite R. split; [reflexivity|]. split; [reflexivity|]. split; [split; [exact R|rewrite app_nil_r; reflexivity]|]. destruct st2. exact Mr.
  - destruct (is_kv_sep c) eqn:Ek.
    + assert (IHc : forall b, sep_loop r (pre ++ [c]) mk b = (x, st') -> exists w, moved w (mkSt pre (c :: r) mk) st' /\ (exists w', w = c :: w' /\ (forall t2, hd_error t2 = hd_error (p_rest st') -> hd_error (w' ++ t2) = hd_error r)) /\ forall t2 st2, hd_error t2 = hd_error (p_rest st') -> p_rest st2 = w ++ t2 -> mrel (mkSt pre (c :: r) mk) st2 -> exists x2 st2', sep_loop (tl w ++ t2) (p_pre st2 ++ [c]) (p_mark st2) b = (x2, st2') /\ outc x x2 /\ moved w st2 st2' /\ mrel st' st2').
      { intros b0 Eb. destruct (IH (pre ++ [c]) b0 x st' Eb S0) as (w & M & F). exists (c :: w). split; [destruct M as [M1 M2]; cbn [p_rest p_pre] in *; split; cbn [p_rest p_pre app]; [congruence|rewrite M2, <- app_assoc; reflexivity]|]. split.
        { exists w. split; [reflexivity|]. intros t2 T. destruct M as [M1 _]. cbn [p_rest] in M1. rewrite M1. destruct w; [exact T|reflexivity]. }
        intros t2 st2 T R Mr. cbn [tl]. destruct (F t2 (mkSt (p_pre st2 ++ [c]) (w ++ t2) (p_mark st2))) as (x2 & s2 & E2 & O & M2 & Mr2); [left; exact T|reflexivity| |].
        { eapply (mrel_moved [c]); [exact Mr| | |reflexivity|reflexivity]; split; cbn [p_rest p_pre app]; [reflexivity|reflexivity|exact R|reflexivity]. }
        cbn [p_rest p_pre p_mark] in E2. exists x2, s2. split; [exact E2|]. split; [exact O|]. split; [|exact Mr2]. destruct M2 as [A1 A2]. cbn [p_rest p_pre] in *. split; [rewrite R; cbn [app]; rewrite A1; reflexivity|rewrite A2, <- app_assoc; reflexivity]. }
      destruct r as [|d r].
      * injection E as <- <-. exists [c]. split; [split; reflexivity|]. intros t2 st2 [T|(K & _)] R Mr; [|discriminate]. destruct t2; [|discriminate]. cbn [app] in R. exists (Ok b), (mkSt (p_pre st2 ++ [c]) [] (p_mark st2)). rewrite R. cbn [sep_loop]. rewrite Ek. split; [reflexivity|]. split; [reflexivity|]. assert (M2 : moved [c] st2 (mkSt (p_pre st2 ++ [c]) [] (p_mark st2))) by (split; [exact R|reflexivity]). split; [exact M2|]. eapply mrel_moved; [exact Mr| |exact M2|reflexivity|reflexivity]. split; reflexivity.
      * assert (IHd : exists b0, sep_loop (d :: r) (pre ++ [c]) mk b0 = (x, st') /\ (forall r2 pre2 mk2, sep_loop (c :: d :: r2) pre2 mk2 b = sep_loop (d :: r2) (pre2 ++ [c]) mk2 b0)).
        { destruct (d =? chEQ)%N eqn:Ed; [destruct b|].
          - injection E as <- <-. exfalso. unfold parse_error in S0. destruct (to_linecol _ _) in S0. cbn in S0. apply N.eqb_eq in Ed. subst d. discriminate.
          - exists true. split; [exact E|]. intros. cbn [sep_loop]. rewrite Ek, Ed. reflexivity.
          - exists b. split; [exact E|]. intros. cbn [sep_loop]. rewrite Ek, Ed. reflexivity. }
        destruct IHd as (b0 & E0 & Eq). destruct (IHc b0 E0) as (w & M & (w' & -> & Hw) & F). exists (c :: w'). split; [exact M|]. intros t2 st2 [T|(K & _)] R Mr; [|discriminate]. destruct (F t2 st2 T R Mr) as (x2 & s2 & E2 & O). exists x2, s2. split; [|exact O]. rewrite R. cbn [app tl] in *. specialize (Hw t2 T). destruct (w' ++ t2) as [|d2 r2]; [discriminate|]. injection Hw as ->. rewrite Eq. exact E2.
    + injection E as <- <-. exists []. split; [split; [reflexivity|rewrite app_nil_r; reflexivity]|]. intros t2 st2 [T|(K & _)] R Mr; [|discriminate]. cbn [app p_rest] in *. destruct t2 as [|c2 t2]; [discriminate|]. injection T as ->. exists (Ok b), st2. rewrite R. cbn [sep_loop]. rewrite Ek. split; [destruct st2; cbn in R; subst; reflexivity|]. split; [reflexivity|]. split; [split; [reflexivity|rewrite app_nil_r; reflexivity]|exact Mr].
Qed.
Lemma loc_sep st : LocAt true st parse_sep.
Proof. unfold parse_sep. loc. apply loc_sep_loop. Qed.
Lemma loc_comment st : LocAt true st (parse_comment_trail false).
Proof. unfold parse_comment_trail. loc. Qed.

(** * Words *)
Definition nodelim (c : char) : bool := negb (is_val_delim c).
Lemma loc_signed st : LocAt false st parse_signed_value.
Proof.
  unfold parse_signed_value. apply loc_bind2; [apply loc_adv|]. intros _ st1 _. apply loc_bind2; [apply loc_extract|]. intros raw st2 _. destruct (parse_number raw); [apply loc_ret|apply loc_raise].
Qed.
Lemma loc_value_error {A} st k (r : res A) : LocAt false st (value_error k r).
Proof. destruct r as [a|e]; [apply loc_ret|]. destruct e; cbn [value_error]; try apply loc_raise_exn. apply loc_raise. Qed.
Ltac loc2 := repeat first
  [ apply loc_ret | apply loc_raise | apply loc_adv | apply loc_extract | apply loc_mark | apply loc_value_error
  | apply loc_bind2; [|intros ? ? _]
  | match goal with |- LocAt _ _ (match ?x with _ => _ end) => destruct x end ].
Lemma loc_digit st : LocAt false st parse_digit_value.
Proof. unfold parse_digit_value. loc2. Qed.
Lemma un_quiet {A} (m : M A) : quiet m -> Unseen m.
Proof. intros H st e st' E S0. apply (H st e st' E). destruct e as [[]| | | | | | | | | | | | | | ]; cbn in *; tauto. Qed.
Lemma peek_word n : forall w t, Forall (fun c => nodelim c = true) w -> (match t with [] => True | c :: _ => nodelim c = false end) -> peek_loop n (w ++ t) = peek_loop n w.
Proof.
  induction n as [|n IH]; intros w t Hw Ht; [reflexivity|]. destruct Hw as [|c w Hc Hw]; cbn [app].
  - destruct t as [|c t]; [reflexivity|]. cbn [peek_loop]. unfold nodelim in Ht. destruct (is_val_delim c); [reflexivity|discriminate].
  - cbn [peek_loop]. destruct (_ || _)%bool; [reflexivity|]. rewrite IH; [reflexivity|assumption|assumption].
Qed.
Lemma word_local {A} (g : M A) st v st' : (forall s, LocAt false s g) -> (adv_whileM nodelim ;;; g) st = (Ok v, st') -> exists w2, moved (take_while nodelim (p_rest st) ++ w2) st st' /\
  forall t2 st2, tails false true (p_rest st') t2 -> p_rest st2 = (take_while nodelim (p_rest st) ++ w2) ++ t2 -> mrel st st2 -> peek_loop 4 (p_rest st2) = peek_loop 4 (p_rest st) /\ exists x2 st2', (adv_whileM nodelim ;;; g) st2 = (x2, st2') /\ outc (Ok v) x2 /\ moved (take_while nodelim (p_rest st) ++ w2) st2 st2' /\ mrel st' st2'.
Proof.
  intros Hg E. assert (L : LocAt false st (adv_whileM nodelim ;;; g)) by (apply loc_bind2; [apply loc_adv|intros; apply Hg]). destruct (L _ _ E I) as (w & M & F). unfold bind, adv_whileM in E. destruct (Hg _ _ _ E I) as (w2 & M2 & _). pose proof (moved_trans _ _ _ _ _ (adv_moved nodelim st) M2) as M'.
  assert (w = take_while nodelim (p_rest st) ++ w2). { destruct M as [A1 _], M' as [B _]. apply (app_inv_tail (p_rest st')). rewrite <- A1. exact B. } subst w. exists w2. split; [exact M|]. intros t2 st2 T R Mr. split; [|exact (F t2 st2 T R Mr)].
  rewrite R, <- app_assoc. rewrite <- (take_drop nodelim (p_rest st)) at 2. rewrite !peek_word; [reflexivity|apply take_while_all|apply drop_head|apply take_while_all|].
  pose proof (drop_head nodelim (p_rest st)) as Hd. destruct M2 as [M2 _]. cbn [adv_while p_rest] in M2. rewrite M2 in Hd. destruct w2 as [|c w2]; [|exact Hd]. cbn [app] in *. destruct T as [T|(_ & _ & ->)]; [|exact I]. destruct t2, (p_rest st'); try discriminate; [exact I|]. injection T as ->. exact Hd.
Qed.
Ltac word E := unfold parse_signed_value, parse_digit_value in E; lazymatch type of E with (bind _ (fun _ => ?g)) ?st = _ => let Hg := fresh in assert (Hg : forall s, LocAt false s g) by (intros ?; loc2); destruct (word_local g st _ _ Hg E) as (w2 & M & F); clear Hg end.
Lemma locf_word st : LocF st (p <- peek 4 ;; if (cur st =? chPLUS)%N || (cur st =? chMINUS)%N || existsb (str_eqb p) special_floats then parse_signed_value else if is_ascii_digit (cur st) then parse_digit_value else raise (KUnexpectedChar (cur st))).
Proof.
  set (pre := ((cur st =? chPLUS)%N || (cur st =? chMINUS)%N)%bool). split.
  - intros x st' E S0. unfold bind, peek in E. destruct (pre || existsb (str_eqb (peek_loop 4 (p_rest st))) special_floats)%bool eqn:Ep.
    + destruct x as [v|e]; [|exfalso; revert S0; eapply (un_quiet _ quiet_signed), E]. word E. eexists. split; [exact M|]. intros t2 st2 T R Mr. destruct (F t2 st2 T R Mr) as (Hp & x2 & s2 & E2 & O). exists x2, s2. split; [|exact O]. unfold bind at 1, peek. rewrite Hp, Ep. exact E2.
    + destruct (is_ascii_digit (cur st)) eqn:Ed.
      * destruct x as [v|e]; [|exfalso; revert S0; eapply (un_quiet _ quiet_digit), E]. word E. eexists. split; [exact M|]. intros t2 st2 T R Mr. destruct (F t2 st2 T R Mr) as (Hp & x2 & s2 & E2 & O). exists x2, s2. split; [|exact O]. unfold bind at 1, peek. rewrite Hp, Ep. exact E2.
      * unfold raise in E. injection E as <- <-. unfold parse_error in *. destruct (to_linecol (src st) (idx st)) as [l0 c0] eqn:El. cbn in S0. exists []. split; [apply moved_refl; reflexivity|]. intros t2 st2 [T|(_ & K & _)] R Mr; [|discriminate]. cbn [app] in R. rewrite <- R in T. pose proof (hd_cur _ _ T) as [Ec _]. unfold bind, peek. exists (Err (parse_error (KUnexpectedChar (cur st)) st2)), st2.
        assert (K : peek_loop 4 (p_rest st2) = peek_loop 4 (p_rest st)). { unfold cur in S0, Ec. destruct (p_rest st) as [|y r]; [discriminate|]. destruct (p_rest st2) as [|y2 r2]; [discriminate|]. subst y. subst y2. reflexivity. }
        rewrite K, Ep. split; [reflexivity|]. split; [unfold parse_error; destruct (to_linecol (src st2) (idx st2)); cbn; reflexivity|]. split; [apply moved_refl; reflexivity|exact Mr].
  - apply eats_moved. intros a st' E. unfold bind, peek in E.
    assert (Hne : (pre || existsb (str_eqb (peek_loop 4 (p_rest st))) special_floats || is_ascii_digit (cur st))%bool = true -> take_while nodelim (p_rest st) <> []).
    { unfold pre, cur. destruct (p_rest st) as [|c r]; [cbn; discriminate|]. cbn [take_while]. destruct (nodelim c) eqn:En; [discriminate|]. unfold nodelim in En. cbn [peek_loop]. destruct (is_val_delim c) eqn:Ed; [|discriminate]. cbn [orb]. intros K. exfalso. revert K Ed. change (existsb (str_eqb []) special_floats) with false. rewrite orb_false_r. unfold is_val_delim, is_ascii_digit. clear. unfold chSP, chTAB, chLF, chCR, chHASH, chCOMMA, chRBR, chRCB, chPLUS, chMINUS. lia. }
    destruct (pre || _)%bool.
    + word E. eexists. split; [exact M|]. specialize (Hne eq_refl). destruct (take_while nodelim (p_rest st)); [congruence|discriminate].
    + destruct (is_ascii_digit (cur st)); [|discriminate]. word E. eexists. split; [exact M|]. specialize (Hne eq_refl). destruct (take_while nodelim (p_rest st)); [congruence|discriminate].
Qed.
(** * Values *)
Lemma loc_restore {A} st (m : M A) : cur st <> chRBR -> LocAt false st m -> LocAt false st (restore_on_err m).
Proof.
  intros Hc H x st' E S0. unfold restore_on_err in E. destruct (m st) as [[a|e] s1] eqn:Em.
  - injection E as <- <-. destruct (H _ _ Em I) as (w & M & F). exists w. split; [exact M|]. intros t2 st2 T R Mr. destruct (F t2 st2 T R Mr) as (x2 & s2 & E2 & O & M2). destruct x2 as [a2|]; [|destruct O]. exists (Ok a2), s2. unfold restore_on_err. rewrite E2. split; [reflexivity|]. split; [exact O|exact M2].
  - injection E as <- <-. exfalso. apply Hc. destruct e as [[]| | | | | | | | | | | | | | ]; cbn in S0; contradiction.
Qed.
Lemma locf_restore {A} st (m : M A) : cur st <> chRBR -> LocF st m -> LocF st (restore_on_err m).
Proof. intros Hc [L T]. split; [apply loc_restore; assumption|]. intros a st' E. unfold restore_on_err in E. destruct (m st) as [[b|e] s1] eqn:Em; [|discriminate]. injection E as <- <-. exact (T b s1 Em). Qed.
Lemma consume_run w : forall st2 t2, p_rest st2 = w ++ t2 -> consume_all w st2 = (Ok tt, mkSt (p_pre st2 ++ w) t2 (p_mark st2)).
Proof.
  induction w as [|c w IH]; intros st2 t2 R; destruct st2 as [pre rest mk]; cbn [p_rest p_pre p_mark] in *; subst rest; cbn [consume_all app]; [rewrite app_nil_r; reflexivity|].
  unfold bind, consume1, cur. cbn [p_rest inc snd p_pre p_mark]. rewrite N.eqb_refl. rewrite (IH _ t2) by reflexivity. cbn [p_pre p_mark]. rewrite <- app_assoc. reflexivity.
Qed.
Lemma locf_bool b st : cur st <> chRBR -> LocF st (parse_bool b).
Proof.
  intros Hc. unfold parse_bool. set (w := if b then L "true" else L "false"). assert (Hw : Forall (fun c => c <> chNUL) w) by (unfold w; destruct b; repeat constructor; discriminate). assert (Hn : w <> []) by (unfold w; destruct b; discriminate).
  assert (Ok1 : forall a st', (consume_all w ;;; ret (scalar_item (SBool b))) st = (Ok a, st') -> a = scalar_item (SBool b) /\ moved w st st' /\ p_mark st' = p_mark st).
  { intros a st' E. unfold bind in E. destruct (consume_all w st) as [[[]|e] s1] eqn:Ec; [|discriminate]. injection E as <- <-. split; [reflexivity|]. pose proof (consume_all_inv w st tt s1 Hw Ec) as M. split; [exact M|]. destruct M as [M _]. rewrite (consume_run w st (p_rest s1) M) in Ec. injection Ec as <-. reflexivity. }
  split.
  - intros x st' E S0. unfold restore_on_err in E. destruct ((consume_all w ;;; ret (scalar_item (SBool b))) st) as [[a|e] s1] eqn:Em.
    + injection E as <- <-. destruct (Ok1 a s1 eq_refl) as (-> & M & Mk). exists w. split; [exact M|]. intros t2 st2 T R Mr. exists (Ok (scalar_item (SBool b))), (mkSt (p_pre st2 ++ w) t2 (p_mark st2)). unfold restore_on_err, bind. rewrite (consume_run w st2 t2 R). split; [reflexivity|]. split; [reflexivity|]. assert (M2 : moved w st2 (mkSt (p_pre st2 ++ w) t2 (p_mark st2))) by (split; [exact R|reflexivity]). split; [exact M2|]. eapply mrel_moved; [exact Mr|exact M|exact M2|exact Mk|reflexivity].
    + injection E as <- <-. exfalso. apply Hc. destruct e as [[]| | | | | | | | | | | | | | ]; cbn in S0; contradiction.
  - apply eats_moved. intros a st' E. unfold restore_on_err in E. destruct ((consume_all w ;;; ret (scalar_item (SBool b))) st) as [[a0|e] s1] eqn:Em; [|discriminate]. injection E as <- <-. destruct (Ok1 a0 s1 eq_refl) as (_ & M & _). exists w. auto.
Qed.
Opaque parse_key parse_sep parse_comment_trail parse_bool.
Lemma loc_kv n pv st : (forall s, LocF s pv) -> LocAt true st (key_value_with false pv n false).
Proof.
  intros Hv. unfold key_value_with. cbn [andb lossy_if]. repeat (apply loc_seq; [|intros ? ? _]); try apply loc_mark; try apply loc_adv; try apply loc_extract; try apply loc_key; try apply loc_sep; try apply loc_ret.
  apply loc_weak, Hv.
Qed.
Definition catch {A B} (m : M A) (f : A -> M B) (next : M B) : M B :=
  fun st => match m st with (Ok v, st') => f v st' | (Err (ParseErr (KUnexpectedChar _) _ _), st') => next st' | (Err e, st') => (Err e, st') end.
Lemma locf_catch {A B} st (m : M A) (f : A -> M B) (next : M B) : LocF st m -> (forall a s, LocF s (f a)) -> (forall s, LocF s next) -> (forall s x s', next s = (x, s') -> sees x s' -> cur s = chRBR) -> LocF st (catch m f next).
Proof.
  intros [Lm Em] Hf Hn Hs.
  assert (LA : LocAt false st (catch m f next)).
  { intros x st' E S0. unfold catch in E. destruct (m st) as [[a|e] s1] eqn:Ev.
    - destruct (Lm _ _ Ev I) as (w1 & M1 & F1). destruct (Hf a s1) as [Lf Ef]. destruct (Lf _ _ E S0) as (w2 & M2 & F2). exists (w1 ++ w2). split; [eapply moved_trans; eassumption|].
      intros t2 st2 T R Mr. rewrite <- app_assoc in R. destruct (F1 (w2 ++ t2) st2) as (x2 & s2 & E2 & O2 & M2' & Mr2); [|exact R|exact Mr|].
      { left. destruct M2 as [M2 _]. rewrite M2. destruct w2 as [|c w2]; [|reflexivity]. cbn [app]. destruct T as [T|(_ & Ho & ->)]; [exact T|]. destruct x as [b|]; [|discriminate]. exfalso. exact (Ef b st' E M2). }
      destruct x2 as [a2|]; [|destruct O2]. cbn in O2. subst a2. destruct (F2 t2 s2 T) as (x3 & s3 & E3 & O3 & M3 & Mr3); [eapply moved_tail; eassumption|exact Mr2|].
      exists x3, s3. unfold catch. rewrite E2. split; [exact E3|]. split; [exact O3|]. split; [eapply moved_trans; eassumption|exact Mr3].
    - assert (K : exists c l k, e = ParseErr (KUnexpectedChar c) l k). { destruct e as [[]| | | | | | | | | | | | | | ]; try (injection E as <- <-; destruct S0). eauto. }
      destruct K as (c & l & k & ->). assert (S1 : sees (Err (ParseErr (KUnexpectedChar c) l k) : res A) s1) by (cbn; eapply Hs; eassumption). destruct (Lm _ _ Ev S1) as (w1 & M1 & F1). destruct (Hn s1) as [Lf Ef]. destruct (Lf _ _ E S0) as (w2 & M2 & F2). exists (w1 ++ w2). split; [eapply moved_trans; eassumption|].
      intros t2 st2 T R Mr. rewrite <- app_assoc in R. destruct (F1 (w2 ++ t2) st2) as (x2 & s2 & E2 & O2 & M2' & Mr2); [|exact R|exact Mr|].
      { left. destruct M2 as [M2 _]. rewrite M2. destruct w2 as [|d w2]; [|reflexivity]. cbn [app]. destruct T as [T|(_ & Ho & ->)]; [exact T|]. destruct x as [b|]; [|discriminate]. exfalso. exact (Ef b st' E M2). }
      destruct x2 as [a2|e2]; [destruct O2|]. destruct e2 as [[]| | | | | | | | | | | | | | ]; cbn in O2; try contradiction. destruct (F2 t2 s2 T) as (x3 & s3 & E3 & O3 & M3 & Mr3); [eapply moved_tail; eassumption|exact Mr2|].
      exists x3, s3. unfold catch. rewrite E2. split; [exact E3|]. split; [exact O3|]. split; [eapply moved_trans; eassumption|exact Mr3]. }
  split; [exact LA|]. intros b st' E K. destruct (LA _ _ E I) as (w & M & _). pose proof E as E0. unfold catch in E. destruct (m st) as [[a|e] s1] eqn:Ev.
  - destruct (Lm _ _ Ev I) as (w1 & M1 & _). destruct (Hf a s1) as [Lf _]. destruct (Lf _ _ E I) as (w2 & M2 & _). apply (Em a s1 Ev). pose proof (moved_trans _ _ _ _ _ M1 M2) as [M3 _]. rewrite <- K in M3. assert (Z : w1 ++ w2 = []) by (apply (f_equal (@List.length _)) in M3; rewrite app_length in M3; destruct (w1 ++ w2); [reflexivity|cbn in M3; lia]). apply app_eq_nil in Z as [-> _]. destruct M1 as [M1 _]. exact M1.
  - assert (K2 : exists c l k, e = ParseErr (KUnexpectedChar c) l k). { destruct e as [[]| | | | | | | | | | | | | | ]; try discriminate. eauto. }
    destruct K2 as (c & l & k & ->). assert (S1 : sees (Err (ParseErr (KUnexpectedChar c) l k) : res A) s1) by (cbn; eapply Hs; [exact E|exact I]). destruct (Lm _ _ Ev S1) as (w1 & M1 & _). destruct (Hn s1) as [Lf Ef]. destruct (Lf _ _ E I) as (w2 & M2 & _). pose proof (moved_trans _ _ _ _ _ M1 M2) as [M3 _]. rewrite <- K in M3. assert (Z : w1 ++ w2 = []) by (apply (f_equal (@List.length _)) in M3; rewrite app_length in M3; destruct (w1 ++ w2); [reflexivity|cbn in M3; lia]). apply app_eq_nil in Z as [_ ->]. apply (Ef b st' E). destruct M2 as [M2 _]. exact M2.
Qed.
Lemma values_local n : (forall st, LocF st (parse_value false n)) /\ (forall es p st, LocF st (array_loop false n es p)) /\ (forall c t st, LocF st (inline_loop false n c t)).
Proof.
  induction n as [|n (IV & IA & II)]; [repeat split; intros; try apply locf_raise_exn|]. all: try (intros ? ? K; discriminate). split; [|split].
  - intros st. cbn [parse_value]. apply locf_bind; [apply loc_mark|]. intros _ st1 _. apply locf_look.
    destruct (cur st1 =? chDQ)%N eqn:Q1; [apply N.eqb_eq in Q1; apply locf_then; [apply locf_restore; [rewrite Q1; discriminate|apply locf_string]|intros; apply loc_ret]|].
    destruct (cur st1 =? chSQ)%N eqn:Q2; [apply N.eqb_eq in Q2; apply locf_then; [apply locf_restore; [rewrite Q2; discriminate|apply locf_string]|intros; apply loc_ret]|].
    destruct (cur st1 =? 116)%N eqn:Q3; [apply N.eqb_eq in Q3; apply locf_bool; rewrite Q3; discriminate|].
    destruct (cur st1 =? 102)%N eqn:Q4; [apply N.eqb_eq in Q4; apply locf_bool; rewrite Q4; discriminate|].
    destruct (cur st1 =? chLBR)%N; [apply locf_bind; [apply loc_inc_exn; discriminate|intros; apply IA]|].
    destruct (cur st1 =? chLCB)%N; [apply locf_bind; [apply loc_inc_exn; discriminate|intros; apply II]|]. apply locf_word.
  - intros es p st. cbn [array_loop]. eapply locf_ext; [intros s; apply since_scan|]. apply locf_bind; [apply loc_scan|]. intros ind st1 _. apply locf_look.
    destruct (existsb is_nl ind); [apply IA|]. destruct (cur st1 =? chHASH)%N; [apply locf_bind; [apply loc_comment|]; intros [[cws cm] tr] s _; apply IA|]. destruct (nonempty ind); [apply IA|].
    set (next := c <- current ;; if match p with Some true => (c =? chCOMMA)%N | _ => false end then inc_exn KUnexpectedEof ;;; array_loop false n (es ++ [EWs [chCOMMA]]) (Some false) else if (c =? chRBR)%N then incM ;;; ret (IArray (group_values es) default_trivia false) else raise (KUnexpectedChar c)).
    assert (HN : forall s, LocF s next).
    { intros s. apply locf_look. destruct (match p with Some true => _ | _ => _ end); [apply locf_bind; [apply loc_inc_exn; discriminate|intros; apply IA]|]. destruct (cur s =? chRBR)%N eqn:Q; [|apply locf_raise]. apply locf_step. apply N.eqb_eq in Q. apply (cur_rest _ _ Q). discriminate. }
    assert (HP : p <> Some true -> LocF st1 (catch (parse_value false n) (fun v => array_loop false n (es ++ [EVal v]) (Some true)) next)).
    { intros Hp. apply locf_catch; [apply IV|intros; apply IA|exact HN|]. intros s x s' E S0. unfold next, bind, current in E. assert (Hc : match p with Some true => (cur s =? chCOMMA)%N | _ => false end = false) by (destruct p as [[]|]; [congruence|reflexivity|reflexivity]). rewrite Hc in E. destruct (cur s =? chRBR)%N eqn:Q; [apply N.eqb_eq, Q|]. injection E as <- <-. unfold parse_error in S0. destruct (to_linecol _ _) in S0. exact S0. }
    destruct p as [[]|]; [apply HN| |]; apply HP; discriminate.
  - intros c t st. cbn [inline_loop]. eapply locf_ext; [intros s; apply since_scan|]. apply locf_bind; [apply loc_scan|]. intros raw st1 _.
    apply locf_bind; [destruct (nonempty raw); [apply loc_lift|apply loc_ret]|]. intros c1 st2 _. apply locf_look.
    match goal with |- LocF _ (if ?b then _ else _) => destruct b eqn:Q end. { apply locf_step. apply andb_true_iff in Q as [_ Q]. apply N.eqb_eq in Q. apply (cur_rest _ _ Q). discriminate. }
    match goal with |- LocF _ (if ?b then _ else _) => destruct b end; [apply locf_raise|]. apply locf_bind; [apply loc_kv, IV|]. intros kv st3 _. apply locf_bind; [apply loc_lift|]. intros c2 st4 _. eapply locf_ext; [intros s; apply since_scan|]. apply locf_bind; [apply loc_scan|]. intros raw2 st5 _.
    apply locf_bind; [destruct (nonempty raw2); [apply loc_lift|apply loc_ret]|]. intros c3 st6 _. apply locf_look. destruct (cur st6 =? chCOMMA)%N; [|apply II]. cbn [andb lossy_if]. apply locf_bind; [apply loc_ret|]. intros _ st7 _. apply locf_bind; [apply loc_inc_exn; discriminate|]. intros. apply II.
Qed.
(** What the text of a value alone gives. *)
Theorem value_local n st v st' w : parse_value false n st = (Ok v, st') -> moved w st st' -> value_of w = Ok v.
Proof.
  intros E M. destruct n as [|n]; [discriminate|]. assert (E1 : parse_value false (S n) (set_mark st) = (Ok v, st')) by exact E. destruct (values_local (S n)) as [V _]. destruct (proj1 (V (set_mark st)) _ _ E1 I) as (w0 & M0 & F).
  assert (w0 = w). { destruct M0 as [A _], M as [B _]. cbn [set_mark p_rest] in A. rewrite A in B. apply app_inv_tail in B. exact B. } subst w0.
  destruct (F [] (start w)) as (x2 & s2 & E2 & O & M2 & _); [right; repeat split|cbn; rewrite app_nil_r; reflexivity|exact (mrel_mark st (start w))|]. destruct x2 as [v2|]; [|destruct O]. cbn in O. subst v2. clear F V E E1 M0 M.
  assert (R : p_rest s2 = []). { destruct M2 as [A _]. cbn [start p_rest] in A. rewrite <- (app_nil_r w) in A at 1. apply app_inv_head in A. auto. }
  assert (E3 : parse_value false (parse_fuel w) (start w) = (Ok v, s2)).
  { destruct (Nat.le_ge_cases (S n) (parse_fuel w)) as [L|L].
    - destruct (mle_value false (S n) (parse_fuel w) false false L (or_introl eq_refl) (start w)) as [(e & s & K & _)|K]; [rewrite E2 in K; discriminate|rewrite K; exact E2].
    - destruct (mle_value false (parse_fuel w) (S n) false false L (or_introl eq_refl) (start w)) as [(e & s & K & B)|K]; [|rewrite <- K; exact E2]. exfalso. apply (value_of_fuel w). unfold value_of. unfold bind at 1. rewrite K. destruct e; try (destruct B; fail); [discriminate B|reflexivity]. }
  unfold value_of. unfold bind at 1. rewrite E3. unfold bind, endM, current, at_end. rewrite R. reflexivity.
Qed.
