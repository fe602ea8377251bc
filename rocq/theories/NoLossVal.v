(** NoLossVal: the strict parser makes no report on values, keys and lines of an ordinary shape (C01). *)
From Verif Require Import Base Source Utils Items Container Arrays Parser Lemmas Escape Strings StringRT StringApi Numbers Reader Linecol Wf Errors Text TextParse.
From Verif Require WordChars Grammar GramSound.
From Verif Require Import NoLoss Ordinary.
From Coq Require Import ZifyBool ZifyNat ZifyN.
Open Scope nat_scope.

Section Values.
Variable s : str.
Hypothesis Hdate : no_date_space s.
Hypothesis Hbrace : braces_after_eq s.
Hypothesis Hcomma : no_blank_comma s.

Definition qt {A} (m : M A) (P : pst -> Prop) (Q : A -> pst -> Prop) : Prop :=
  forall st, src st = s -> P st -> match m st with (Ok a, st') => Q a st' | (Err e, _) => nl e end.
Definition qv {A} (m : M A) (V : A -> Prop) : Prop := qt m (fun _ => True) (fun a _ => V a).
Notation vt0 := (vtri s false false false false).
Notation vt1 := (vtri s false false false true).
Lemma perr_nl e : perr s false false false false e -> nl e.
Proof. destruct e; cbn; try exact (fun _ => I). discriminate. Qed.
Lemma qt_of {A} (m : M A) V : vt0 m V -> qv m V.
Proof. intros H st Hs _. specialize (H st Hs I). destruct (m st) as [[a|e] st']; [exact H|apply perr_nl, H]. Qed.
Lemma qt_and {A} (m : M A) P Q V : qt m P Q -> vt1 m V -> qt m P (fun a st => Q a st /\ V a).
Proof. intros H K st Hs Hp. specialize (H st Hs Hp). specialize (K st Hs I). destruct (m st) as [[a|e] st']; auto. Qed.
Lemma qt_bind {A B} (m : M A) (f : A -> M B) P Q R : good m -> qt m P Q -> (forall a, qt (f a) (Q a) R) -> qt (bind m f) P R.
Proof.
  intros G H K st Hs HP. unfold bind. specialize (H st Hs HP). pose proof (good_src m st G) as Hs'.
  destruct (m st) as [[a|e] st1]; cbn [snd] in Hs'; [|exact H]. apply K; [congruence|exact H].
Qed.
Lemma qt_pre {A} (m : M A) (P P' : pst -> Prop) Q : (forall st, P' st -> P st) -> qt m P Q -> qt m P' Q.
Proof. intros H T st Hs Hp. apply T; auto. Qed.
Lemma qt_post {A} (m : M A) P (Q Q' : A -> pst -> Prop) : (forall a st, src st = s -> Q a st -> Q' a st) -> good m -> qt m P Q -> qt m P Q'.
Proof.
  intros H G T st Hs Hp. specialize (T st Hs Hp). pose proof (good_src m st G) as Hs'.
  destruct (m st) as [[a|e] st1]; cbn [snd] in Hs'; [|exact T]. apply H; [congruence|exact T].
Qed.
Lemma qt_ret {A} (a : A) (P : pst -> Prop) (Q : A -> pst -> Prop) : (forall st, P st -> Q a st) -> qt (ret a) P Q.
Proof. intros H st _ Hp. apply H, Hp. Qed.
Lemma nl_parse k st : nl (parse_error k st). Proof. unfold parse_error. destruct (to_linecol _ _). exact I. Qed.
Lemma qt_raise {A} k P Q : qt (@raise A k) P Q. Proof. intros st _ _. apply nl_parse. Qed.
Lemma qt_raise_exn {A} e P Q : nl e -> qt (@raise_exn A e) P Q. Proof. intros H st _ _. exact H. Qed.
Lemma qt_restore {A} (m : M A) P Q : qt m P Q -> qt (restore_on_err m) P Q.
Proof. intros H st Hs Hp. specialize (H st Hs Hp). unfold restore_on_err. destruct (m st) as [[a|e] st1]; exact H. Qed.
Lemma qt_lift {A} (r : res A) (V : A -> Prop) P : match r with Ok a => V a | Err e => nl e end -> qt (lift r) P (fun a st => V a /\ P st).
Proof. intros H st Hs Hp. unfold lift. destruct r; auto. Qed.

(** * Arrays: where a value is expected *)
Definition blankc (c : char) : Prop := is_spaces c = true.
Definition opening (p : str) : Prop := exists a c w, p = a ++ c :: w /\ c <> chEQ /\ is_spaces c = false /\ Forall blankc w.
Definition inv (st : pst) : Prop := opening (p_pre st) \/ p_rest st = [] \/ exists d r, p_rest st = d :: r /\ is_nl d = true.
Lemma opening_snoc p c : c <> chEQ -> is_spaces c = false -> opening (p ++ [c]).
Proof. intros H1 H2. exists p, c, []. auto. Qed.
Lemma opening_more p w : opening p -> Forall (fun c => is_ws c = true) w -> opening (p ++ w).
Proof.
  intros H. revert p H. induction w as [|c w IH]; intros p H F; [rewrite app_nil_r; exact H|]. inversion F as [|? ? Fc Fw]; subst.
  replace (p ++ c :: w) with ((p ++ [c]) ++ w) by (rewrite <- app_assoc; reflexivity). apply IH; [|exact Fw].
  destruct (is_spaces c) eqn:E.
  - destruct H as (a & d & u & -> & H1 & H2 & H3). exists a, d, (u ++ [c]). rewrite <- app_assoc. repeat split; auto. apply Forall_app. split; [exact H3|constructor; [exact E|constructor]].
  - apply opening_snoc; [|exact E]. intros ->. discriminate.
Qed.
Lemma opening_ws p w d r : is_nl d = true -> w = d :: r -> Forall (fun c => is_ws c = true) w -> opening (p ++ w).
Proof.
  intros Hd -> F. inversion F; subst. replace (p ++ d :: r) with ((p ++ [d]) ++ r) by (rewrite <- app_assoc; reflexivity). apply opening_more; [|assumption].
  apply opening_snoc; [intros ->; discriminate|]. destruct (is_spaces d) eqn:E; [|reflexivity]. exfalso. revert E Hd. unfold is_spaces, is_nl, chSP, chTAB, chLF, chCR. lia.
Qed.
Lemma inv_ws st : inv st -> nonempty (take_while is_ws (p_rest st)) = true -> inv (adv_while is_ws st).
Proof.
  intros H N. left. cbn [adv_while p_pre]. pose proof (take_while_all is_ws (p_rest st)) as F. destruct H as [H|[H|(d & r & H & Hd)]].
  - apply opening_more; assumption.
  - rewrite H in N. discriminate.
  - rewrite H in *. assert (Wd : is_ws d = true) by (revert Hd; unfold is_ws, is_nl, chLF, chCR; lia). cbn [take_while] in *. rewrite Wd in *. eapply opening_ws; [exact Hd|reflexivity|exact F].
Qed.
Lemma opening_eq p a w : opening p -> p = a ++ chEQ :: w -> Forall blankc w -> False.
Proof.
  intros (b & c & u & -> & H1 & H2 & H3) E Fw. apply (f_equal (@rev char)) in E. rewrite !rev_app_distr in E. cbn [rev] in E. rewrite <- !app_assoc in E. cbn [app] in E.
  apply Forall_rev in H3. apply Forall_rev in Fw. revert E H3 Fw. generalize (rev u) (rev w). intros x. induction x as [|y x IH]; intros [|z v] E F1 F2; cbn in E.
  - injection E as -> _. apply H1. reflexivity.
  - injection E as -> _. inversion F2 as [|? ? K _]; subst. unfold blankc in K. congruence.
  - injection E as -> _. inversion F1 as [|? ? K _]; subst. discriminate K.
  - injection E as _ E. inversion F1; inversion F2; subst. eapply IH; eassumption.
Qed.
Lemma inv_brace st : src st = s -> inv st -> cur st <> chLCB.
Proof.
  intros Hs H E. unfold cur in E. destruct (p_rest st) as [|d r] eqn:Er; [discriminate|]. subst d. destruct H as [H|[H|(d & r' & H & Hd)]]; [|congruence|].
  - destruct (Hbrace (p_pre st) r) as (a & w & E & F). { rewrite <- Hs. unfold src. rewrite Er. reflexivity. } eapply opening_eq; eauto.
  - rewrite Er in H. injection H as <- _. discriminate Hd.
Qed.
(** * Dates *)
Definition plain (v : item) : Prop := tr_cws (item_trivia v) = [].
Lemma digit_plain : forall st v st', src st = s -> p_mark st = idx st -> parse_digit_value st = (Ok v, st') -> plain v.
Proof.
  intros st v st' Hs Hm H. unfold parse_digit_value in H. bix H. bix H. rewrite (GramSound.raw_of _ _ Hm) in H. set (p := fun c => negb (is_val_delim c)) in *. pose proof (adv_moved p st) as M0.
  assert (Hnl : inb chLF (take_while p (p_rest st)) = false) by (apply GramSound.no_nl; unfold p; intros c Hc ->; discriminate).
  assert (Hraw : match drop_while p (p_rest st) with [] => True | c :: _ => p c = false end) by apply GramSound.drop_head.
  assert (Hr : p_rest (adv_while p st) = drop_while p (p_rest st)) by reflexivity.
  revert H M0 Hnl Hraw Hr. generalize (take_while p (p_rest st)). intros raw H M0 Hnl Hraw Hr. set (s1 := adv_while p st) in *. clearbody s1.
  assert (Num : (match parse_number raw with Some v => ret (scalar_item v) | None => raise KInvalidNumber end) s1 = (Ok v, st') -> plain v).
  { destruct (parse_number raw); intros X; [|discriminate]. injection X as <- _. reflexivity. }
  destruct (loose_match raw) as [[[|] [|]]|]; [| | |exact (Num H)|exact (Num H)].
  - bi H dt s2 Q. destruct dt; try discriminate. injection H as <- _. reflexivity.
  - bi H dt s2 Q. apply GramSound.value_error_inv in Q as [Qd ->]. destruct dt as [| |d]; try discriminate.
    all: match type of Qd with _ = Ok (RDate _) => idtac | _ => discriminate H end.
    bix H. bix H. bix H. rewrite GramSound.raw_of in H by reflexivity. cbv zeta in H. cbn [set_mark p_rest] in H. apply GramSound.rfc_date in Qd; [|exact Hnl].
    set (q := fun c => negb (is_date_stop c)) in *.
    assert (T : take_while q (p_rest s1) = []).
    { rewrite Hr. destruct (drop_while p (p_rest st)) as [|c r] eqn:Ed; [reflexivity|]. cbn [take_while]. destruct (q c) eqn:Eq; [|reflexivity]. exfalso.
      assert (c = chSP) as ->. { unfold p in Hraw. unfold q, is_date_stop in Eq. destruct (is_val_delim c); [|discriminate]. cbn in Eq. destruct (N.eqb_spec c chSP); [assumption|discriminate]. }
      destruct Qd as (y & m & d0 & -> & _ & _ & L2 & F). destruct d0 as [|d1 [|d2 [|]]]; try discriminate L2.
      apply (Hdate (p_pre st ++ y ++ [45]%N ++ m) d1 d2 r).
      - rewrite <- Hs. unfold src. destruct M0 as [M0 _]. rewrite M0, Hr. rewrite <- !app_assoc. reflexivity.
      - apply Forall_app in F as [_ F]. apply Forall_app in F as [_ F]. inversion F as [|? ? F1 F']; subst. inversion F' as [|? ? F2 _]; subst. revert F1 F2. unfold Grammar.digit_c, is_ascii_digit. lia. }
    rewrite T in H. cbn in H. injection H as <- _. reflexivity.
  - bi H dt s2 Q. destruct dt; try discriminate. injection H as <- _. reflexivity.
Qed.
Lemma signed_plain st v st' : parse_signed_value st = (Ok v, st') -> plain v.
Proof. intros H. unfold parse_signed_value in H. bix H. bix H. destruct (parse_number _); [|discriminate]. injection H as <- _. reflexivity. Qed.
Lemma bool_plain b st v st' : parse_bool b st = (Ok v, st') -> plain v.
Proof.
  unfold parse_bool, restore_on_err. intros H. destruct (bind _ _ st) as [[a|e] st1] eqn:E; [|discriminate]. injection H as <- _. bi E u s1 Q. injection E as <- _. reflexivity.
Qed.
Notation F0 := (fun H : false = true => match Bool.diff_false_true H with end).
Lemma qv_pre {A} (m : M A) V (P : pst -> Prop) : qv m V -> qt m P (fun a _ => V a).
Proof. intros H st Hs _. apply H; auto. Qed.
Lemma qt_digit : qt parse_digit_value (fun st => p_mark st = idx st) (fun v _ => plain v).
Proof.
  intros st Hs Hm. pose proof (qt_of _ _ (vt_digit s false false false false false F0 F0 F0) st Hs I) as H. destruct (parse_digit_value st) as [[v|e] st'] eqn:E; [|exact H]. eapply digit_plain; eassumption.
Qed.
Lemma qt_signed P : qt parse_signed_value P (fun v _ => plain v).
Proof.
  intros st Hs Hm. pose proof (qt_of _ _ (vt_signed s false false false false false F0 F0 F0) st Hs I) as H. destruct (parse_signed_value st) as [[v|e] st'] eqn:E; [|exact H]. eapply signed_plain; eassumption.
Qed.
Lemma qt_bool b P : qt (parse_bool b) P (fun v _ => plain v).
Proof.
  intros st Hs Hm. pose proof (qt_of _ _ (vt_bool s false false false false false F0 F0 F0 b) st Hs I) as H. destruct (parse_bool b st) as [[v|e] st'] eqn:E; [|exact H]. eapply bool_plain; eassumption.
Qed.
Lemma qt_string n d P : qt (v <- restore_on_err (parse_string n d) ;; ret (str_item v)) P (fun v _ => plain v).
Proof.
  eapply qt_bind; [good|apply qt_restore, qv_pre, qt_of, (vt_parse_string s false false false false F0 F0 F0)|]. intros v. apply qt_ret. reflexivity.
Qed.
Lemma qt_inc_exn k (P Q : pst -> Prop) : (forall st c r, src st = s -> P st -> p_rest st = c :: r -> Q (mkSt (p_pre st ++ [c]) r (p_mark st))) -> qt (inc_exn k) P (fun _ => Q).
Proof.
  intros H st Hs Hp. unfold inc_exn, inc. destruct (p_rest st) as [|c r] eqn:E; [apply nl_parse|]. destruct r as [|d r]; [apply nl_parse|]. exact (H st c (d :: r) Hs Hp E).
Qed.
Lemma qt_inc (P Q : pst -> Prop) : (forall st, P st -> Q (snd (inc st))) -> qt incM P (fun _ => Q).
Proof. intros H st Hs Hp. unfold incM. specialize (H st Hp). destruct (inc st) as [b st']. exact H. Qed.
Lemma qt_comment b P : qt (parse_comment_trail b) P (fun _ _ => True).
Proof. apply qv_pre, qt_of, (vt_comment_trail s false false false false F0 F0 F0). Qed.
Lemma qt_comment_inv (P : pst -> Prop) : qt (parse_comment_trail false) (fun st => P st /\ cur st = chHASH) (fun _ st => inv st).
Proof.
  intros st Hs [Hp Hc]. pose proof (qt_comment false (fun _ => True) st Hs I) as H. destruct (parse_comment_trail false st) as [[r|e] st'] eqn:E; [|exact H].
  destruct r as [[cws cm] tr]. apply GramSound.comment_gram in E as (m & k & s3 & _ & _ & M1 & M2 & K & Q).
  right. assert (Er : p_rest st' = p_rest s3) by (destruct M2 as [M2 _]; cbn in M2; congruence). rewrite Er. unfold at_end, cur in K. destruct (p_rest s3) as [|d r]; [left; reflexivity|right]. exists d, r. split; [reflexivity|]. destruct K as [K|K]; [discriminate|exact K].
Qed.
Lemma qt_kv_with pv n b P : good pv -> qt pv (fun _ => True) (fun v _ => plain v) -> qt (key_value_with true pv n b) P (fun _ _ => True).
Proof.
  intros G H. unfold key_value_with. apply qt_bind with (Q := fun _ _ => True); [good|apply qv_pre, qt_of, (vt_mark s false false false false)|intros _].
  apply qt_bind with (Q := fun _ _ => True); [good|apply qv_pre, qt_of, (vt_adv s false false false false)|intros _].
  apply qt_bind with (Q := fun _ _ => True); [good|apply qv_pre, qt_of, (vt_extract s false false false false)|intros ind].
  apply qt_bind with (Q := fun _ _ => True); [good|apply qv_pre, qt_of; eapply vt_true, (vt_parse_key s false false false false F0 F0 F0)|intros ky].
  apply qt_bind with (Q := fun _ _ => True); [good|apply qv_pre, qt_of; eapply vt_true, (vt_sep s false false false false F0 F0 F0)|intros sp].
  eapply qt_bind; [exact G|exact H|]. intros v. cbv zeta. intros st Hs Pv. unfold plain in Pv. rewrite Pv. cbn [nonempty andb]. revert st Hs Pv.
  match goal with |- forall st, _ -> _ -> match ?m st with _ => _ end => change (qt m (fun _ => tr_cws (item_trivia v) = []) (fun _ _ => True)) end.
  apply qt_bind with (Q := fun _ _ => True); [good| |intros t; apply qt_ret; auto]. destruct b.
  - apply qt_bind with (Q := fun _ _ => True); [good|apply qt_comment|]. intros [[cws cm] tr]. unfold lossy_if. apply qt_bind with (Q := fun _ _ => True); [good|apply qt_ret; auto|]. intros _. apply qt_ret. auto.
  - unfold lossy_if. apply qt_bind with (Q := fun _ _ => True); [good|apply qt_ret; auto|]. intros _. apply qt_ret. auto.
Qed.
Lemma qt_add c k i P : flat_c c -> isval i -> key_fine k -> qt (add_elem true c k i) P (fun c' st => flat_c c' /\ P st).
Proof. intros Hc Hi Hk. apply (qt_lift (cappend true c k i) flat_c P). exact (append_pair _ true c k i Hc Hk Hi). Qed.
Lemma flat_empty : flat_c (empty_cont true).
Proof.
  split; [constructor|]. split; [|reflexivity]. split; [intros i k it H; destruct i; discriminate|intros n ci H; discriminate].
Qed.
(** Blanks, then the next character. *)
Lemma blanks_step {A} (f : str -> M A) st : (a <- idxM ;; adv_whileM is_spaces ;;; raw <- since a ;; f raw) st = f (take_while is_spaces (p_rest st)) (adv_while is_spaces st).
Proof. unfold bind, idxM, adv_whileM, since. destruct (since_adv is_spaces st) as [-> _]. reflexivity. Qed.
Lemma adv_src p st : src (adv_while p st) = src st.
Proof. unfold src, adv_while. cbn. rewrite <- app_assoc, take_drop. reflexivity. Qed.
Lemma comma_tight st : src st = s -> cur (adv_while is_spaces st) = chCOMMA -> take_while is_spaces (p_rest st) = [].
Proof.
  intros Hs Hc. pose proof (take_while_all is_spaces (p_rest st)) as F. rewrite <- (adv_src is_spaces) in Hs. unfold src, cur in *. cbn [adv_while p_pre p_rest] in *.
  destruct (drop_while is_spaces (p_rest st)) as [|d r]; [discriminate|]. subst d. destruct (take_while is_spaces (p_rest st)) as [|x w] eqn:Et; [reflexivity|exfalso].
  destruct (exists_last (l := x :: w)) as (w' & c & E); [discriminate|]. rewrite E in *. apply Forall_app in F as [_ F]. assert (Fc : is_spaces c = true) by (inversion F; assumption).
  pose proof (Hcomma (p_pre st ++ w') c r) as X. rewrite <- Hs in X. rewrite <- !app_assoc in X. specialize (X eq_refl). congruence.
Qed.
Definition QV n := qt (parse_value true n) (fun _ => True) (fun v _ => plain v).
Definition QA n := forall e p, qt (array_loop true n e p) (fun st => p = Some true \/ inv st) (fun v _ => plain v).
Definition QI n := forall c t, flat_c c -> qt (inline_loop true n c t) (fun _ => True) (fun v _ => plain v).
Lemma QV_step n : QA n -> QI n -> QV (S n).
Proof.
  intros HA HI. unfold QV. cbn [parse_value]. apply qt_bind with (Q := fun _ st => p_mark st = idx st); [good|intros st Hs _; reflexivity|]. intros _.
  pose proof (good_values n true) as (G1 & G2 & G3).
  intros st Hs Hm. unfold bind at 1, current. revert st Hs Hm.
  assert (K : forall c, qt (if (c =? chDQ)%N then v <- restore_on_err (parse_string n SLB) ;; ret (str_item v)
      else if (c =? chSQ)%N then v <- restore_on_err (parse_string n SLL) ;; ret (str_item v)
      else if (c =? 116)%N then parse_bool true
      else if (c =? 102)%N then parse_bool false
      else if (c =? chLBR)%N then inc_exn KUnexpectedEof ;;; array_loop true n [] None
      else if (c =? chLCB)%N then
        inc_exn KUnexpectedEof ;;; inline_loop true n (empty_cont true) None
      else
        p <- peek 4 ;;
        if (c =? chPLUS)%N || (c =? chMINUS)%N || existsb (str_eqb p) special_floats then parse_signed_value
        else if is_ascii_digit c then parse_digit_value
        else raise (KUnexpectedChar c)) (fun st => p_mark st = idx st /\ cur st = c) (fun v _ => plain v)); [|intros st Hs Hm; apply (K (cur st)); auto].
  intros c. destruct (c =? chDQ)%N; [apply qt_string|]. destruct (c =? chSQ)%N; [apply qt_string|]. destruct (c =? 116)%N; [apply qt_bool|]. destruct (c =? 102)%N; [apply qt_bool|].
  destruct (N.eqb_spec c chLBR) as [->|_].
  { apply qt_bind with (Q := fun _ st => None = Some true \/ inv st); [good| |intros _; apply HA]. apply qt_inc_exn. intros st c r Hs [_ Hc] Er. right. left. cbn [p_pre]. unfold cur in Hc. rewrite Er in Hc. subst c. apply opening_snoc; [discriminate|reflexivity]. }
  destruct (N.eqb_spec c chLCB) as [->|_].
  { apply qt_bind with (Q := fun _ st => True); [good|apply qt_inc_exn; auto|intros _; apply HI, flat_empty]. }
  apply qt_bind with (Q := fun _ st => p_mark st = idx st); [good|intros st Hs [Hm _]; exact Hm|]. intros p.
  destruct (_ || _)%bool; [apply qt_signed|]. destruct (is_ascii_digit c); [apply qt_digit|apply qt_raise].
Qed.
Lemma QA_step n : QV n -> QA n -> QA (S n).
Proof.
  intros HV HA e p st Hs Hp. pose proof (good_values n true) as (G1 & G2 & G3). cbn [array_loop]. unfold bind at 1, idxM. unfold bind at 1, adv_whileM. unfold bind at 1, since. unfold bind at 1, current at 1.
  destruct (since_adv is_ws st) as [Ei _]. rewrite Ei. clear Ei. pose proof (adv_src is_ws st) as Es. rewrite Hs in Es.
  assert (Ws : nonempty (take_while is_ws (p_rest st)) = true -> forall e', match array_loop true n e' p (adv_while is_ws st) with (Ok a, st') => plain a | (Err e, _) => nl e end).
  { intros N e'. apply HA; [exact Es|]. destruct Hp as [Hp|Hp]; [left; exact Hp|right; apply inv_ws; assumption]. }
  assert (S1 : nonempty (take_while is_ws (p_rest st)) = false -> inv st -> inv (adv_while is_ws st)).
  { intros N H. unfold inv in *. cbn [adv_while p_pre p_rest]. pose proof (take_drop is_ws (p_rest st)) as T. destruct (take_while is_ws (p_rest st)); [|discriminate]. cbn [app] in T. rewrite T, app_nil_r. exact H. }
  revert Ws S1 Es. generalize (take_while is_ws (p_rest st)) (adv_while is_ws st). intros ind s1 Ws S1 Es.
  destruct (existsb is_nl ind) eqn:En; [apply Ws; destruct ind; [discriminate|reflexivity]|]. destruct (N.eqb_spec (cur s1) chHASH) as [Ec|Nc].
  { match goal with |- match ?m s1 with _ => _ end => assert (TT : qt m (fun st => True /\ cur st = chHASH) (fun v _ => plain v)); [|apply TT; auto] end.
    eapply qt_bind; [good|apply qt_comment_inv|]. intros [[cws cm] tr]. eapply qt_pre; [|apply HA]. intros x Hx. right; exact Hx. }
  destruct (nonempty ind) eqn:Ne; [apply Ws; reflexivity|]. clear Ws. specialize (S1 eq_refl).
  cbv zeta. match goal with |- context [bind current ?f] => set (next := bind current f) end.
  assert (Nx : qt next (fun _ => True) (fun v _ => plain v)).
  { unfold next. intros x Hx _. unfold bind at 1, current. destruct (match p with Some true => (cur x =? chCOMMA)%N | _ => false end) eqn:Ec.
    - match goal with |- match ?m x with _ => _ end => assert (TT : qt m (fun st => cur st = cur x) (fun v _ => plain v)); [|apply TT; auto] end.
      apply qt_bind with (Q := fun _ st => Some false = Some true \/ inv st); [good| |intros _; apply HA]. apply qt_inc_exn. intros y c r Hy Hc Er. right. left. cbn [p_pre].
      destruct p as [[|]|]; try discriminate. apply N.eqb_eq in Ec. rewrite Ec in Hc. unfold cur in Hc. rewrite Er in Hc. subst c. apply opening_snoc; [discriminate|reflexivity].
    - destruct (cur x =? chRBR)%N; [|apply nl_parse]. match goal with |- match ?m x with _ => _ end => assert (TT : qt m (fun st => True) (fun v _ => plain v)); [|apply TT; auto] end.
      apply qt_bind with (Q := fun _ _ => True); [good|apply qt_inc; auto|]. intros _. apply qt_ret. reflexivity. }
  assert (Val : inv s1 -> match (match parse_value true n s1 with
              | (Ok v, st') =>
                  if true && nonempty (tr_cws (item_trivia v)) then (Err (LossyE 2), st')
                  else array_loop true n (e ++ [EVal v]) (Some true) st'
              | (Err (ParseErr (KUnexpectedChar _) _ _), st') =>
                  if true && negb (Nat.eqb (idx st') (idx s1)) && (cur st' =? chRBR)%N then (Err (LossyE 4), st')
                  else next st'
              | (Err e, st') => (Err e, st')
              end) with (Ok a, _) => plain a | (Err e, _) => nl e end).
  { intros Hi. pose proof (HV s1 Es I) as H. pose proof (good_src _ s1 G1) as Hs1. destruct (GramSound.values_gram true n) as (VP & _ & _). specialize (VP s1). destruct (parse_value true n s1) as [[v|er] s2]; cbn [snd] in Hs1.
    - rewrite H. cbn [nonempty andb]. apply HA; [congruence|left; reflexivity].
    - specialize (VP _ _ eq_refl). destruct er as [k0 l0 c0| | | | | | | | | | | | | |]; try exact H; destruct k0; try exact H.
      destruct (_ && _)%bool eqn:Eb; [exfalso|apply Nx; [congruence|exact I]]. apply andb_true_iff in Eb as [Eb Ec]. apply N.eqb_eq in Ec. cbn [andb] in Eb. apply negb_true_iff, Nat.eqb_neq in Eb.
      destruct (VP I) as [[_ M]|[M|M]]; [|congruence|exact (inv_brace s1 Es Hi M)]. apply Eb. unfold idx. rewrite M, app_nil_r. reflexivity. }
  destruct p as [[|]|]; [apply Nx; [exact Es|exact I]| |].
  - apply Val. destruct Hp as [Hp|Hp]; [discriminate|exact (S1 Hp)].
  - apply Val. destruct Hp as [Hp|Hp]; [discriminate|exact (S1 Hp)].
Qed.
Lemma QI_step n : QV n -> QI n -> QI (S n).
Proof.
  intros HV HI c t Hc st Hs _. pose proof (good_values n true) as (G1 & G2 & G3). cbn [inline_loop]. rewrite blanks_step. set (raw := take_while is_spaces (p_rest st)). set (s1 := adv_while is_spaces st).
  assert (Es : src s1 = s) by (unfold s1; rewrite adv_src; exact Hs). clearbody raw s1. clear st Hs. revert s1 Es.
  match goal with |- forall s1, _ -> match ?m s1 with _ => _ end => assert (TT : qt m (fun _ => True) (fun v _ => plain v)); [|intros s1 Es; apply TT; auto] end.
  assert (Add : forall c r, flat_c c -> qt (if nonempty r then add_elem true c None (IWs r false) else ret c) (fun _ => True) (fun c' st => flat_c c' /\ True)).
  { intros c0 r Hc0. destruct (nonempty r); [apply qt_add; [exact Hc0|reflexivity|exact I]|apply qt_ret; auto]. }
  eapply qt_bind; [unfold add_elem; good|apply Add, Hc|]. intros c1 s1 Es [Hc1 _]. revert s1 Es.
  match goal with |- forall s1, _ -> match ?m s1 with _ => _ end => assert (TT : qt m (fun _ => True) (fun v _ => plain v)); [|intros s1 Es; apply TT; auto] end.
  intros s1 Es _. unfold bind at 1, current. destruct (_ && _)%bool.
  { match goal with |- match ?m s1 with _ => _ end => assert (TT : qt m (fun _ => True) (fun v _ => plain v)); [|apply TT; auto] end. apply qt_bind with (Q := fun _ _ => True); [good|apply qt_inc; auto|]. intros _. apply qt_ret. reflexivity. }
  match goal with |- match (if ?b then _ else _) _ with _ => _ end => destruct b end; [apply nl_parse|].
  match goal with |- match ?m s1 with _ => _ end => assert (TT : qt m (fun _ => True) (fun v _ => plain v)); [|apply TT; auto] end. clear s1 Es.
  assert (GI : forall c t, good (inline_loop true n c t)) by (intros; apply G3).
  eapply qt_bind; [apply good_kv_with; exact G1| |].
  { apply qt_and; [apply qt_kv_with; [exact G1|exact HV]|]. apply (vt_kv_with s false false false true false F0 F0 F0 _ _ _ G1). apply (vt_value s false false false true false F0 F0 F0). }
  intros [k i] st Hs [_ [Hk Hi]]. cbn [fst snd] in *. revert st Hs. match goal with |- forall s1, _ -> match ?m s1 with _ => _ end => assert (TT : qt m (fun _ => True) (fun v _ => plain v)); [|intros s1 Es; apply TT; auto] end.
  eapply qt_bind; [unfold add_elem; good|apply qt_add; [exact Hc1|apply Hi|apply kfine_key; exact Hk]|]. intros c2 st Hs [Hc2 _]. rewrite blanks_step. 
  pose proof (comma_tight st Hs) as CT. pose proof (adv_src is_spaces st) as Es. rewrite Hs in Es. revert CT Es. generalize (take_while is_spaces (p_rest st)) (adv_while is_spaces st). intros raw2 s1 CT Es.
  match goal with |- match ?m s1 with _ => _ end => assert (TT : qt m (fun x => x = s1) (fun v _ => plain v)); [|apply TT; auto] end.
  eapply qt_bind with (Q := fun c' x => flat_c c' /\ x = s1); [unfold add_elem; good| |].
  { destruct (nonempty raw2); [apply (qt_add c2 None (IWs raw2 false) (fun x => x = s1)); [exact Hc2|reflexivity|exact I]|apply qt_ret; auto]. }
  intros c3 x Hx [Hc3 ->]. unfold bind at 1, current. destruct (N.eqb_spec (cur s1) chCOMMA) as [Ec|]; [|apply HI; auto]. rewrite (CT Ec). cbn [nonempty andb lossy_if].
  match goal with |- match ?m s1 with _ => _ end => assert (TT : qt m (fun _ => True) (fun v _ => plain v)); [|apply TT; auto] end.
  apply qt_bind with (Q := fun _ _ => True); [good|apply qt_ret; auto|]. intros _. apply qt_bind with (Q := fun _ _ => True); [good|apply qt_inc_exn; auto|]. intros _. apply HI, Hc3.
Qed.
Lemma values_quiet n : QV n /\ QA n /\ QI n.
Proof.
  induction n as [|n (IH1 & IH2 & IH3)].
  - split; [|split; [intros e p|intros c t _]]; intros st _ _; exact I.
  - split; [apply QV_step; assumption|]. split; [apply QA_step; assumption|apply QI_step; assumption].
Qed.
Lemma qt_kv n b P : qt (parse_key_value true n b) P (fun kv _ => kvfine kv).
Proof.
  unfold parse_key_value. eapply qt_post; [|apply good_kv_with; good|apply qt_and; [apply qt_kv_with; [good|apply values_quiet]|apply (vt_kv_with s false false false true false F0 F0 F0); [good|apply (vt_value s false false false true false F0 F0 F0)]]]. intros a st _ [_ [H1 H2]]. split; [exact H1|apply H2].
Qed.
Lemma qt_item n P : qt (parse_item true n) P (fun r _ => item_ok r).
Proof.
  intros st Hs _. unfold parse_item. pose proof (qt_restore _ _ _ (qt_of _ _ (vt_item_head s false false false false false F0 F0 F0)) st Hs I) as H.
  destruct (restore_on_err item_head st) as [[[i| |]|e] st1]; cbn beta iota in H; try exact H; try exact I.
  - split; [exact I|apply H].
  - set (st2 := mkSt _ _ _). assert (G : qt (kv <- parse_key_value true n true;; ret (Some (Some (fst kv), snd kv))) (fun _ => True) (fun r _ => item_ok r)).
    { eapply qt_bind; [good|apply qt_kv|]. intros kv. apply qt_ret. intros _ [A B]. split; [apply kfine_key; exact A|exact B]. }
    apply (G st2 Hs I).
Qed.
End Values.
