(** GramSound: what the parser accepts is laid out as Grammar.v says (C37). *)
From Verif Require WordChars.
From Verif Require Import Base Source Utils Items Container Arrays Parser Api Lemmas Escape Strings StringRT StringApi Numbers Reader Errors Control Text TextParse TextDoc Grammar.
From Coq Require Import ZifyBool ZifyNat ZifyN.
Open Scope nat_scope.

(** * Characters *)
Ltac chp := intros; unfold delim_c, space_c, blank_c, newline_c, control_c, bare_c, clock_c, digit_c, is_blank, is_ws, is_spaces, bad_comment_char, bad_string_char, is_nl, is_kv_sep, is_bare_key_char, is_ascii_letter, is_ascii_digit, is_date_stop,
  is_val_delim, is_quote, chSP, chTAB, chCR, chLF, chHASH, chDQ, chSQ, chEQ, chDOT, chMINUS, chPLUS, chUND, chLBR, chRBR, chLCB, chRCB, chCOMMA, chCOLON, chBSL, chNUL in *; lia.
Lemma blank_spaces c : is_spaces c = true -> blank_c c. Proof. chp. Qed.
Lemma space_ws c : is_ws c = true -> space_c c. Proof. chp. Qed.
Lemma taken p (P : char -> Prop) w : (forall c, p c = true -> P c) -> Forall P (take_while p w).
Proof. intros H. eapply Forall_impl; [exact H|apply take_while_all]. Qed.
Lemma moved_adv p st : moved (take_while p (p_rest st)) st (adv_while p st). Proof. apply adv_moved. Qed.
Lemma moved_blanks st : exists w, blanks w /\ moved w st (adv_while is_spaces st).
Proof. eexists. split; [|apply adv_moved]. apply taken. intros c. apply blank_spaces. Qed.
Lemma moved_mark w st st' : moved w (set_mark st) st' -> moved w st st'. Proof. intros H. exact H. Qed.
Lemma inc_exn_moved k st u st' : inc_exn k st = (Ok u, st') -> moved [cur st] st st'.
Proof. intros H. apply inc_exn_inv in H as (c & r & E & _ & ->). unfold cur. rewrite E. split; [exact E|reflexivity]. Qed.
Lemma incM_moved st b st' c : incM st = (Ok b, st') -> cur st = c -> c <> chNUL -> moved [c] st st'.
Proof. intros H Hc Hn. destruct (cur_cons st c Hc Hn) as [r Hr]. apply incM_inv in H as [[H _]|(x & r' & H & ->)]; rewrite Hr in H; [discriminate|]. injection H as <- <-. split; [exact Hr|reflexivity]. Qed.
Lemma moved_nil st : moved [] st st. Proof. apply moved_refl; reflexivity. Qed.
Lemma moved_eq w w' st st' : w = w' -> moved w st st' -> moved w' st st'. Proof. intros ->. auto. Qed.

Lemma moved_cons st st' c w : moved [c] st st' -> forall x, moved w st' x -> moved (c :: w) st x.
Proof. intros H x H1. exact (moved_trans _ _ _ _ _ H H1). Qed.
Lemma inc_n_full w : forall st b s' r, inc_n (List.length w) st = (b, s') -> p_rest st = w ++ r -> moved w st s'.
Proof.
  induction w as [|c w IH]; intros [pre rest mk] b s' r H E; cbn [List.length inc_n] in H; cbn [p_rest] in E.
  - injection H as <- <-. apply moved_nil.
  - subst rest. cbn [inc p_rest app p_pre p_mark] in H. destruct (w ++ r) as [|d x] eqn:Ew.
    + injection H as <- <-. apply app_eq_nil in Ew as [-> ->]. split; reflexivity.
    + apply (moved_cons _ (mkSt (pre ++ [c]) (w ++ r) mk)); [split; reflexivity|]. rewrite <- Ew in H. eapply IH; [exact H|reflexivity].
Qed.

(** * Strings *)
Lemma unicode_len b st v ex st' : peek_unicode b st = (Ok (Some (v, ex)), st') -> List.length ex = if b then 8 else 4.
Proof.
  unfold peek_unicode, restoring_all. match goal with |- (let '(r, _) := ?m st in _) = _ -> _ => destruct (m st) as [r0 st0] eqn:E end.
  intros H. inversion H; subst. clear H. bix E. destruct (negb _); [discriminate|]. bi E b0 s1 F1. bix E. bi E ok s2 F2. unfold inc_nM in F2.
  destruct (inc_n _ (set_mark s1)) as [b2 s3] eqn:En. injection F2 as <- <-. apply inc_n_split in En as (w & Hw & Hl & Hb & Hm). destruct b2; [|discriminate]. cbn [negb] in E. bix E.
  specialize (Hb eq_refl). assert (X : extract s3 = w). { apply marked_extract. exists (p_pre s1). split; [apply Hw|]. rewrite Hm. reflexivity. }
  rewrite X in E. destruct (match w with [] => _ | _ => _ end); [discriminate|]. destruct (py_int w 16) as [z|]; [|discriminate]. destruct (_ && _)%bool; [|discriminate]. injection E as _ <- _. exact Hb.
Qed.
Lemma escaped_moved ml st v st' : parse_escaped_char ml st = (Ok v, st') -> exists w, moved w st st' /\ piece true ml 34%N (chBSL :: w).
Proof.
  unfold parse_escaped_char. intros H. bix H. destruct (ml && is_ws (cur st))%bool eqn:F1.
  - apply andb_true_iff in F1 as [-> Ew]. bi H tmp s1 F2. unfold skip_ws_exn in F2. destruct (_ && _)%bool; [discriminate|]. injection F2 as <- <-. destruct (inb chLF _) eqn:El; [|discriminate]. injection H as <- <-.
    eexists. split; [apply adv_moved|]. apply pc_continued; [reflexivity|reflexivity|apply taken; intros c; apply space_ws|apply inb_In in El; exact El].
  - destruct (escaped_value (cur st)) as [x|] eqn:F2.
    + bi H u s1 F3. apply inc_exn_moved in F3. injection H as _ <-. exists [cur st]. split; [exact F3|]. apply pc_escape; [reflexivity|]. constructor. clear -F2. unfold escaped_value in F2.
      repeat match type of F2 with (if ?c then _ else _) = _ => destruct c eqn:? end; try discriminate; cbn [In]; lia.
    + destruct ((cur st =? 117) || (cur st =? 85))%N%bool eqn:F3; [|discriminate]. bi H u s1 F4. destruct u as [[x ex]|]; [|discriminate]. bi H b s2 F5. injection H as _ <-.
      pose proof (unicode_len _ _ _ _ _ F4) as Hl. apply unicode_rest in F4 as (-> & r & Hr & _). unfold inc_nM in F5. destruct (inc_n _ st) as [b5 s5] eqn:En. injection F5 as _ <-.
      change (S (List.length ex)) with (List.length (cur st :: ex)) in En. apply inc_n_full with (r := r) in En; [|exact Hr]. exists (cur st :: ex). split; [exact En|]. apply pc_escape; [reflexivity|].
      destruct (N.eqb_spec (cur st) 85) as [E|E]; [rewrite E; apply es_U, Hl|]. assert (E' : cur st = 117%N) by lia. rewrite E'. apply es_u, Hl.
Qed.

(** What has been read of a string, up to the closing delimiter. *)
Lemma piece_unit d : quote_of (st_basic d) = st_unit d. Proof. destruct d; reflexivity. Qed.
Lemma pieces_any b ml q j k w : pieces b ml q j w -> hd_error w <> Some q -> pieces b ml q k w.
Proof.
  intros H Hh. destruct H as [j|j u w P R|j w Hm Hj R]; [constructor|apply ps_piece; assumption|]. exfalso. apply Hh. reflexivity.
Qed.
Lemma quotes_pieces b q k w : k < 3 -> (hd_error w <> Some q) -> pieces b true q 0 w -> pieces b true q 0 (repeat q k ++ w).
Proof.
  intros Hk Hh H. destruct k as [|[|[|k]]]; cbn [repeat app]; [exact H| | |lia].
  - apply ps_quote; [reflexivity|lia|]. eapply pieces_any; eassumption.
  - apply ps_quote; [reflexivity|lia|]. apply ps_quote; [reflexivity|lia|]. eapply pieces_any; eassumption.
Qed.
Lemma drop_head p s : match drop_while p s with [] => True | c :: _ => p c = false end.
Proof. induction s as [|c s IH]; cbn [drop_while]; [exact I|]. destruct (p c) eqn:E; [exact IH|exact E]. Qed.
Lemma nobool (P : Prop) : false = true -> P. Proof. discriminate. Qed.
Lemma string_loop_gram n : forall d v e st r st', (e = true -> st_basic d = true) -> string_loop n d v e st = (Ok r, st') ->
  exists b, moved (b ++ st_value d) st st' /\
    if e then exists u w, b = u ++ w /\ piece (st_basic d) (st_multiline d) (st_unit d) (chBSL :: u) /\ pieces (st_basic d) (st_multiline d) (st_unit d) 0 w
    else pieces (st_basic d) (st_multiline d) (st_unit d) 0 b.
Proof.
  induction n as [|n IH]; intros d v e st r st' He H; cbn [string_loop] in H; [discriminate|].
  bix H. destruct (negb e && bad_string_char _ _)%bool eqn:Eb; [discriminate|].
  destruct (negb e && (cur st =? st_unit d)%N)%bool eqn:Eq.
  - apply andb_true_iff in Eq as [Ee Eq]. apply negb_true_iff in Ee as ->. apply N.eqb_eq in Eq. rewrite bind_ok with (a := extract st) (st1 := st) in H by reflexivity.
    pose proof (st_value_repeat d) as SV. destruct (st_multiline d) eqn:Eml.
    + rewrite bind_ok with (a := st) (st1 := st) in H by reflexivity. cbv zeta in H.
      set (p := fun x => (x =? st_unit d)%N) in *. bi H x s1 Q1.
      assert (X1 : moved (take_while p (p_rest st)) st s1) by (injection Q1 as _ <-; apply adv_moved).
      assert (X2 : hd_error (p_rest s1) <> Some (st_unit d)).
      { injection Q1 as _ <-. cbn [adv_while p_rest]. pose proof (drop_head p (p_rest st)) as D. destruct (drop_while p (p_rest st)) as [|c y]; [discriminate|]. cbn. intros K. injection K as ->. unfold p in D. rewrite N.eqb_refl in D. discriminate. }
      clear Q1. destruct (take_unit (st_unit d) (p_rest st)) as [k Ek]. fold p in Ek. rewrite Ek in *.
      rewrite repeat_length in H. destruct (Nat.ltb_spec k 3).
      * destruct (IH d _ false _ _ _ (nobool _) H) as (b & B1 & B2). rewrite Eml in B2. exists (repeat (st_unit d) k ++ b). split.
        { rewrite <- app_assoc. eapply moved_trans; eassumption. }
        apply quotes_pieces; [lia| |exact B2]. destruct B1 as [B1 _]. rewrite B1 in X2. destruct b as [|c b]; [discriminate|]. exact X2.
      * assert (G : k <= 5 /\ s1 = st').
        { destruct (Nat.eqb_spec k 3); [injection H as _ <-; split; [lia|reflexivity]|]. destruct (Nat.leb_spec 6 k); [bix H; discriminate|]. injection H as _ <-. split; [lia|reflexivity]. }
        clear H. destruct G as [G ->]. exists (repeat (st_unit d) (k - 3)). rewrite SV. rewrite <- repeat_split. replace (k - 3 + 3) with k by lia. split; [exact X1|].
        rewrite <- (app_nil_r (repeat _ _)). apply quotes_pieces; [lia|discriminate|constructor].
    + bi H b s1 Q1. injection H as _ <-. apply (incM_moved _ _ _ _ Q1) in Eq; [|apply unit_nonnul]. exists []. rewrite SV. split; [exact Eq|constructor].
  - destruct (st_basic d && e)%bool eqn:F1.
    + apply andb_true_iff in F1 as [Ebs ->]. bi H u s1 Q1. apply escaped_moved in Q1 as (w & W1 & W2). destruct (IH d _ false _ _ _ (nobool _) H) as (b & B1 & B2).
      exists (w ++ b). split; [rewrite <- app_assoc; eapply moved_trans; eassumption|]. exists w, b. split; [reflexivity|]. split; [|exact B2].
      assert (Eu : st_unit d = 34%N) by (destruct d; try discriminate Ebs; reflexivity). rewrite Ebs, Eu. exact W2.
    + assert (e = false) as -> by (destruct e; [rewrite He in F1 by reflexivity; discriminate|reflexivity]). cbn [negb andb] in Eb, Eq.
      destruct (st_basic d && (cur st =? chBSL)%N)%bool eqn:F2.
      * apply andb_true_iff in F2 as [Ebs Ec]. apply N.eqb_eq in Ec. bi H u s1 Q1. apply inc_exn_moved in Q1. rewrite Ec in Q1.
        destruct (IH d _ true _ _ _ (fun _ => Ebs) H) as (b & B1 & u' & w & -> & P1 & P2). exists ((chBSL :: u') ++ w). split; [|apply ps_piece; assumption].
        exact (moved_trans _ _ _ _ _ Q1 B1).
      * bi H u s1 Q1. apply inc_exn_moved in Q1. destruct (IH d _ false _ _ _ (nobool _) H) as (b & B1 & B2). exists ([cur st] ++ b). split.
        { exact (moved_trans _ _ _ _ _ Q1 B1). }
        apply ps_piece; [|exact B2]. apply pc_char.
        -- apply N.eqb_neq in Eq. exact Eq.
        -- intros Ebs Ec. rewrite Ebs, Ec in F2. discriminate.
        -- clear -Eb. destruct (st_multiline d); revert Eb; chp.
Qed.
Lemma string_loop_type n : forall d v e st t v' o st', string_loop n d v e st = (Ok (SStr t v' o), st') -> t = d.
Proof.
  induction n as [|n IH]; intros d v e st t v' o st' H; cbn [string_loop] in H; [discriminate|]. bix H. destruct (negb e && bad_string_char _ _)%bool; [discriminate|].
  destruct (negb e && _)%bool.
  - rewrite bind_ok with (a := extract st) (st1 := st) in H by reflexivity. destruct (st_multiline d).
    + rewrite bind_ok with (a := st) (st1 := st) in H by reflexivity. cbv zeta in H. bi H x s1 Q1. destruct (Nat.ltb _ 3); [apply IH in H; exact H|]. destruct (Nat.eqb _ 3); [injection H as <- _ _ _; reflexivity|]. destruct (Nat.leb _ _); [discriminate|]. injection H as <- _ _ _; reflexivity.
    + bi H x s1 Q1. injection H as <- _ _ _; reflexivity.
  - destruct (st_basic d && e)%bool; [bi H x s1 Q1; apply IH in H; exact H|]. destruct (_ && _)%bool; bi H x s1 Q1; apply IH in H; exact H.
Qed.
Lemma skip_nl_gram b q st u st' : (q = 34 \/ q = 39)%N -> skip_first_newline st = (Ok u, st') -> exists w, moved w st st' /\ forall r, pieces b true q 0 r -> pieces b true q 0 (w ++ r).
Proof.
  intros Hq. assert (P : forall c, (c = 10 \/ c = 13)%N -> piece b true q [c]).
  { intros c Hc. apply pc_char; [lia|lia|]. intros _. split; [reflexivity|exact Hc]. }
  unfold skip_first_newline. intros H. bix H. destruct (N.eqb_spec (cur st) chLF) as [E|E].
  - apply inc_exn_moved in H. exists [cur st]. split; [exact H|]. intros r R. apply ps_piece; [apply P; left; exact E|exact R].
  - bi H tw s1 Q1. assert (s1 = mkSt (p_pre st) (p_rest st) (p_mark s1) /\ forall c, tw = Some c -> exists r, p_rest st = cur st :: c :: r \/ c = chNUL) as [F1 F2].
    { unfold restoring in Q1. destruct st as [pre [|c r] mk]; cbn in Q1; injection Q1 as <- <-; cbn; (split; [reflexivity|]); intros c0 K; [discriminate|].
      destruct r as [|d r]; [discriminate|]. unfold cur in K; cbn in K. injection K as <-. exists r. left. reflexivity. }
    destruct ((cur st =? chCR)%N && _)%bool eqn:F3.
    + apply andb_true_iff in F3 as [Ec F3]. apply N.eqb_eq in Ec. destruct tw as [c2|]; [|discriminate]. apply N.eqb_eq in F3 as ->. destruct (F2 _ eq_refl) as [r [Er|K]]; [|discriminate K].
      cbn [inc_n_exn] in H. bi H x s2 Q2. bi H y s3 Q3. injection H as _ <-. apply inc_exn_moved in Q2, Q3.
      assert (C1 : cur s1 = cur st) by (rewrite F1; unfold cur; cbn; reflexivity). assert (C2 : cur s2 = chLF).
      { destruct Q2 as [Q2 _]. rewrite F1 in Q2. cbn [p_rest] in Q2. rewrite Er in Q2. apply (f_equal (@tl _)) in Q2; cbn [tl app] in Q2. unfold cur. rewrite <- Q2. reflexivity. }
      rewrite C1, Ec in Q2. rewrite C2 in Q3. exists [13; 10]%N. split.
      { rewrite F1 in Q2. exact (moved_trans _ _ _ _ _ Q2 Q3). }
      intros r0 R. apply (ps_piece b true q 0 [13]%N (10%N :: r0)); [apply P; auto|]. apply (ps_piece b true q 0 [10]%N r0); [apply P; auto|exact R].
    + injection H as _ <-. exists []. split; [|intros r R; exact R]. rewrite F1. apply moved_refl; reflexivity.
Qed.
Lemma string_gram n d st r st' : st_multiline d = false -> parse_string n d st = (Ok r, st') ->
  exists ml w, moved w st st' /\ string_text (st_basic d) ml w /\ match r with SStr t _ _ => ml = st_multiline t | _ => True end.
Proof.
  intros Hd H. pose proof (sat_parse_string n d _ _ _ H) as Hs. destruct r as [| | | | | |t v' o]; try contradiction. clear Hs.
  unfold parse_string in H. bix H. destruct (N.eqb_spec (cur st) (st_unit d)) as [Ec|]; cbn [negb] in H; [|discriminate].
  bi H x s1 Q1. apply inc_exn_moved in Q1. rewrite Ec in Q1. bix H. bi H od s2 Q2.
  assert (D : (od = None /\ moved [st_unit d] s1 s2) \/ (od = Some d /\ moved [] s1 s2) \/ (od = Some (st_toggle d) /\ moved [st_unit d; st_unit d] s1 s2)).
  { destruct (N.eqb_spec (cur s1) (st_unit d)) as [Ec1|].
    - bi Q2 b s3 Q3. pose proof (incM_moved _ _ _ _ Q3 Ec1 (unit_nonnul d)) as Q3'. clear Q3; rename Q3' into Q3. bix Q2. destruct b; cbn [negb orb] in Q2.
      2:{ injection Q2 as <- <-. auto. }
      destruct (N.eqb_spec (cur s3) (st_unit d)) as [Ec3|]; cbn [negb] in Q2; [|injection Q2 as <- <-; auto].
      bi Q2 y s4 Q4. injection Q2 as <- <-. apply inc_exn_moved in Q4. rewrite Ec3 in Q4. right; right. split; [reflexivity|].
      apply (moved_trans _ _ _ _ _ Q3 Q4).
    - injection Q2 as <- <-. right; left. split; [reflexivity|]. apply moved_nil. }
  clear Q2. destruct D as [[-> D]|D].
  - injection H as <- _ _ <-. exists false, ([st_unit d] ++ [st_unit d]). split; [eapply moved_trans; eassumption|]. split; [|symmetry; exact Hd]. exists []. rewrite piece_unit. split; [constructor|reflexivity].
  - assert (K : exists d', od = Some d' /\ moved (st_value d') st s2 /\ st_basic d' = st_basic d).
    { destruct D as [[-> D]|[-> D]].
      - exists d. split; [reflexivity|]. split; [|reflexivity]. rewrite st_value_repeat, Hd. exact (moved_trans _ _ _ _ _ Q1 D).
      - exists (st_toggle d). split; [reflexivity|]. split; [|destruct d; reflexivity]. rewrite st_value_repeat, toggle_unit, toggle_ml, Hd. apply (moved_trans _ _ _ _ _ Q1 D). }
    destruct K as (d' & -> & K & Kb). clear D. bix H. bi H y s3 Q3.
    assert (F : exists w, moved w s2 s3 /\ forall r, pieces (st_basic d) (st_multiline d') (st_unit d') 0 r -> pieces (st_basic d) (st_multiline d') (st_unit d') 0 (w ++ r)).
    { destruct (st_multiline d').
      - apply (skip_nl_gram (st_basic d) (st_unit d')) in Q3; [exact Q3|destruct d'; cbn; auto].
      - injection Q3 as _ <-. exists []. split; [apply moved_refl; reflexivity|auto]. }
    destruct F as (w0 & W1 & W2). clear Q3. pose proof (string_loop_type _ _ _ _ _ _ _ _ _ H) as ->.
    destruct (string_loop_gram _ d' _ false _ _ _ (nobool _) H) as (b & B1 & B2). exists (st_multiline d'), (st_value d' ++ (w0 ++ b) ++ st_value d'). split.
    { eapply moved_trans; [exact K|]. rewrite <- app_assoc. eapply moved_trans; [exact W1|exact B1]. }
    split; [|reflexivity]. exists (w0 ++ b). rewrite piece_unit. rewrite Kb in B2. assert (Eu : st_unit d = st_unit d') by (destruct d, d'; try discriminate Kb; reflexivity).
    rewrite Eu. split; [apply W2, B2|]. destruct d'; reflexivity.
Qed.

(** * Keys and separators *)
Lemma all_take p q w : (forall c, p c = true -> q c = true) -> Forall (fun c => q c = true) (take_while p w).
Proof. intros H. apply taken, H. Qed.
Lemma extract_twice p q st : extract (adv_while q (adv_while p (set_mark st))) = take_while p (p_rest st) ++ take_while q (drop_while p (p_rest st)).
Proof. unfold extract. cbn. rewrite <- app_assoc, skipn_length_app. reflexivity. Qed.
Lemma bare_gram w : Forall (fun c => is_bare_key_char c || is_spaces c = true)%bool w -> Base.strip w <> [] -> inb chSP (Base.strip w) = false -> simple_key w.
Proof.
  intros Hw Hn Hs. destruct (strip_split py_isspace w) as (a & b & E & Ha & Hb). fold (Base.strip w) in E.
  assert (Hh : match Base.strip w with [] => True | c :: _ => py_isspace c = false end).
  { unfold Base.strip, lstrip_p. pose proof (drop_head py_isspace w) as D. destruct (drop_while py_isspace w) as [|c r]; [exact I|].
    destruct (Control.rstrip_split py_isspace (c :: r)) as (z & Ez & _). destruct (rstrip_p py_isspace (c :: r)) as [|x y]; [exact I|]. injection Ez as -> _. exact D. }
  revert Hn Hs E Hh. generalize (Base.strip w). intros k Hn Hs E Hh. subst w. apply Forall_app in Hw as [Wa Hw]. apply Forall_app in Hw as [Wk Wb]. destruct k as [|c k]; [congruence|].
  assert (B : forall x, Forall (fun c => py_isspace c = true) x -> Forall (fun c => is_bare_key_char c || is_spaces c = true)%bool x -> blanks x).
  { intros x H1 H2. apply Forall_forall. intros c0 Hc. rewrite Forall_forall in H1, H2. specialize (H1 _ Hc). specialize (H2 _ Hc). revert H1 H2. cbv beta. unfold py_isspace. chp. }
  apply sk_bare; [apply B; assumption| | |apply B; assumption].
  - inversion Wk as [|? ? W1 _]; subst. clear -W1 Hh. cbv beta iota in W1, Hh. revert Hh. unfold py_isspace. chp.
  - inversion Wk as [|? ? _ W1]; subst. clear -W1 Hs. apply Forall_forall. intros x Hx. rewrite Forall_forall in W1. specialize (W1 _ Hx). cbv beta in W1.
    assert (x <> chSP). { intros ->. assert (K : inb chSP (c :: k) = true) by (apply inb_In; right; exact Hx). rewrite K in Hs. discriminate. }
    revert W1 H. chp.
Qed.
Lemma key_gram n : forall st k st', parse_key n st = (Ok k, st') -> exists w, moved w st st' /\ key_text w.
Proof.
  induction n as [|n IH]; intros st k st' H; cbn [parse_key] in H; [discriminate|]. bix H. bix H. bix H.
  destruct (moved_blanks (set_mark st)) as (a & Ha & Ma). bi H k1 s1 Q1.
  assert (K : exists w, moved w st s1 /\ simple_key w).
  { destruct (is_quote (cur _)) eqn:Eq.
    - bix Q1. cbv zeta in Q1. bi Q1 v s2 Q2. apply string_gram in Q2 as (ml & w & W1 & W2 & W3); [|destruct (_ =? _)%N; reflexivity].
      destruct v as [| | | | | |t v o]; try discriminate. destruct (st_multiline t) eqn:Et; [discriminate|]. subst ml. bix Q1. bix Q1. bix Q1.
      apply (f_equal snd) in Q1. cbn [snd ret] in Q1. subst s1. destruct (moved_blanks (set_mark s2)) as (z & Hz & Mz).
      exists (a ++ w ++ z). split; [eapply moved_trans; [exact Ma|]; eapply moved_trans; [exact W1|exact Mz]|]. eapply sk_quoted; eassumption.
    - bix Q1. bix Q1. rewrite extract_twice in Q1. cbv zeta in Q1. set (o := _ ++ _) in Q1. destruct (Base.strip o) as [|c0 r0] eqn:Es; [discriminate|].
      destruct (inb chSP (c0 :: r0)) eqn:Ei; [discriminate|]. apply (f_equal snd) in Q1. cbn [snd ret] in Q1. subst s1. exists o. split.
      + apply (moved_trans _ _ st (adv_while is_spaces (set_mark st))); [apply (adv_moved is_spaces (set_mark st))|apply adv_moved].
      + apply bare_gram; rewrite ?Es; [|discriminate|exact Ei]. apply Forall_app. split; apply all_take; intros c Hc; revert Hc; [intros ->; rewrite orb_true_r; reflexivity|auto]. }
  clear Q1. destruct K as (w & W1 & W2). bix H. destruct (N.eqb_spec (cur s1) chDOT) as [Ed|].
  - bi H b s2 Q2. pose proof (incM_moved _ _ _ _ Q2 Ed ltac:(discriminate)) as M2. bi H k2 s3 Q3. apply (f_equal snd) in H. cbn [snd ret] in H. subst st'.
    apply IH in Q3 as (r & R1 & R2). exists (w ++ [46]%N ++ r). split; [|apply kt_dot; assumption]. eapply moved_trans; [exact W1|]. eapply moved_trans; [exact M2|exact R1].
  - apply (f_equal snd) in H. cbn [snd ret] in H. subst st'. exists w. split; [exact W1|apply kt_one, W2].
Qed.
Lemma sep_loop_gram rest : forall pre mk found st', sep_loop rest pre mk found = (Ok true, st') ->
  exists w, moved w (mkSt pre rest mk) st' /\
   (if found then (hd_error rest = Some 61%N -> exists b, w = [61]%N ++ b /\ blanks b) /\ (hd_error rest <> Some 61%N -> blanks w)
    else hd_error rest <> Some 61%N -> sep_text w).
Proof.
  induction rest as [|c r IH]; intros pre mk found st' H; cbn [sep_loop] in H.
  - injection H as -> <-. exists []. split; [apply moved_nil|]. split; [discriminate|intros _; constructor].
  - destruct (is_kv_sep c) eqn:Ec.
    2:{ injection H as -> <-. exists []. split; [apply moved_nil|]. split; [|intros _; constructor]. cbn. intros K. injection K as ->. discriminate. }
    assert (Hb : c <> 61%N -> blank_c c) by (intros; clear -Ec H0; revert Ec H0; chp).
    destruct r as [|d r].
    { injection H as -> <-. exists [c]. split; [split; reflexivity|]. split.
      - cbn. intros K. injection K as ->. exists []. split; [reflexivity|constructor].
      - cbn. intros K. constructor; [apply Hb; congruence|constructor]. }
    destruct (N.eqb_spec d chEQ) as [->|Ed].
    + destruct found; [discriminate|]. apply IH in H as (w & W1 & W2 & _). destruct (W2 eq_refl) as (b & -> & B). exists ([c] ++ [61]%N ++ b). split.
      { eapply moved_trans; [|exact W1]. split; reflexivity. }
      cbn. intros K. exists [c], b. split; [reflexivity|]. split; [|exact B]. constructor; [apply Hb; congruence|constructor].
    + apply IH in H as (w & W1 & W2). exists ([c] ++ w). split; [eapply moved_trans; [|exact W1]; split; reflexivity|].
      assert (Hd : hd_error (d :: r) <> Some 61%N) by (cbn; intros K; injection K as ->; apply Ed; reflexivity). destruct found.
      * destruct W2 as [_ W2]. specialize (W2 Hd). cbn. split; intros K; [injection K as ->; exists w; split; [reflexivity|exact W2]|]. constructor; [apply Hb; congruence|exact W2].
      * destruct (W2 Hd) as (a & b & -> & A & B). cbn [hd_error]. intros K. exists (c :: a), b. split; [reflexivity|]. split; [constructor; [apply Hb; congruence|exact A]|exact B].
Qed.
Lemma sep_gram st w st' : parse_sep st = (Ok w, st') -> exists w, moved w st st' /\ sep_text w.
Proof.
  unfold parse_sep. intros H. bix H. bix H. bi H f s1 Q1. bix H. destruct f; [|discriminate]. cbn [negb] in H. apply (f_equal snd) in H. cbn [snd extractM] in H. subst s1. cbv beta in Q1.
  apply sep_loop_gram in Q1 as (x & X1 & X2). exists x. split; [exact X1|]. unfold cur in X2. cbn [set_mark p_rest] in X2. destruct (p_rest st) as [|c r].
  - change (chNUL =? chEQ)%N with false in X2. apply X2. discriminate.
  - cbn [hd_error] in X2. destruct (N.eqb_spec c chEQ) as [->|Ec].
    + destruct X2 as [X2 _]. destruct (X2 eq_refl) as (b & -> & B). exists [], b. split; [reflexivity|]. split; [constructor|exact B].
    + apply X2. intros K. injection K as ->. apply Ec. reflexivity.
Qed.

(** * Comments and the rest of a line *)
Lemma comment_body w : Forall (fun c => ~ control_c c) (take_while (fun c => negb (is_nl c) && negb (bad_comment_char c))%bool w).
Proof. apply taken. chp. Qed.
Lemma trail_gram st r st' : at_end st = true \/ is_nl (cur st) = true -> parse_trail st = (Ok r, st') -> exists w, moved w st st' /\
  ((at_end st = true /\ w = []) \/ (at_end st = false /\ In w [[10]; [13]; [13; 10]]%N /\ (cur st = chLF -> w = [10]%N))).
Proof.
  unfold parse_trail. intros Hc H. bix H. bix H. bi H b1 s1 Q1. bix H. bi H b2 s2 Q2. apply (f_equal snd) in H. cbn [snd extractM] in H. subst s2.
  destruct st as [pre rest mk]. unfold cur, at_end in *. cbn [p_rest] in Hc. destruct rest as [|c r0].
  - cbn in Q1, Q2. injection Q1 as _ <-. cbn in Q2. injection Q2 as _ <-. exists []. split; [apply moved_refl; cbn; rewrite ?app_nil_r; reflexivity|]. left. auto.
  - destruct Hc as [|Ec]; [discriminate|].
    assert (Es : is_spaces c = false) by (clear -Ec; revert Ec; chp). unfold adv_while in Q1. cbn [p_pre p_rest p_mark take_while drop_while] in Q1. rewrite Es in Q1. rewrite app_nil_r in Q1. cbn [p_rest] in Q1.
    destruct (N.eqb_spec c chCR) as [->|Hn].
    + destruct (incM_inv _ _ _ Q1) as [[K _]|(x & y & K & ->)]; [discriminate K|]. cbn in K. injection K as <- <-. cbn [p_pre p_rest p_mark] in Q2.
      destruct r0 as [|d r0]; [cbn in Q2; injection Q2 as _ <-; exists [13]%N; split; [split; reflexivity|]; right; split; [reflexivity|]; split; [right; left; reflexivity|discriminate]|].
      destruct (N.eqb_spec d chLF) as [->|Hd].
      * destruct (incM_inv _ _ _ Q2) as [[K _]|(x & y & K & ->)]; [discriminate K|]. cbn in K. injection K as <- <-. exists [13; 10]%N. split; [split; cbn; [reflexivity|rewrite <- app_assoc; reflexivity]|].
        right; split; [reflexivity|]. split; [right; right; left; reflexivity|discriminate].
      * injection Q2 as _ <-. exists [13]%N; split; [split; reflexivity|]; right; split; [reflexivity|]; split; [right; left; reflexivity|discriminate].
    + assert (c = chLF) as -> by (clear -Ec Hn; revert Ec Hn; chp). injection Q1 as _ <-. cbn [p_rest] in Q2. change (chLF =? chLF)%N with true in Q2. cbv iota in Q2.
      destruct (incM_inv _ _ _ Q2) as [[K _]|(x & y & K & ->)]; [discriminate K|]. cbn in K. injection K as <- <-. exists [10]%N. split; [split; reflexivity|]. right; split; [reflexivity|]. split; [left; reflexivity|reflexivity].
Qed.
Lemma at_end_cur st : at_end st = false -> cur st = cur st -> exists r, p_rest st = cur st :: r.
Proof. unfold at_end, cur. destruct (p_rest st); [discriminate|]. eauto. Qed.
Lemma comment_gram b st r st' : parse_comment_trail b st = (Ok r, st') -> exists m k s1, margin m /\ (k = [] \/ comment k) /\ moved (m ++ k) st s1 /\
  (if b then (at_end s1 = true /\ moved [] s1 st') \/ (exists e, In e [[10]; [13]; [13; 10]]%N /\ (k = [] -> e = [10]%N) /\ moved e s1 st') else moved [] s1 st')
  /\ (at_end s1 = true \/ is_nl (cur s1) = true) /\ (cur st = chHASH -> m = [] /\ comment k).
Proof.
  unfold parse_comment_trail. intros H. bix H. destruct (at_end st) eqn:Ee.
  { apply (f_equal snd) in H. cbn [snd ret] in H. subst st'. exists [], [], st. split; [constructor|]. split; [left; reflexivity|]. split; [apply moved_nil|].
    split; [destruct b; [left; split; [exact Ee|apply moved_nil]|apply moved_nil]|]. split; [left; exact Ee|]. intros K. unfold cur, at_end in *. destruct (p_rest st); discriminate. }
  bix H. bix H. bix H. bix H. set (s0 := adv_while is_blank (set_mark st)) in *.
  assert (M0 : moved (take_while is_blank (p_rest st)) st s0) by (apply (adv_moved is_blank (set_mark st))).
  assert (Hm : margin (take_while is_blank (p_rest st))) by (apply taken; chp).
  bi H cc s1 Q1. destruct cc as [cws cm]. bi H tr s2 Q2. apply (f_equal snd) in H. cbn [snd ret] in H. subst s2.
  assert (K : exists k, (k = [] \/ comment k) /\ moved k s0 s1 /\ (at_end s1 = true \/ is_nl (cur s1) = true) /\ (k = [] -> at_end s1 = true \/ cur s1 = chLF) /\ (cur s0 = chHASH -> comment k)).
  { destruct (at_end s0 || (cur s0 =? chLF)%N)%bool eqn:E0.
    { apply (f_equal snd) in Q1. cbn [snd ret] in Q1. subst s1. exists []. split; [left; reflexivity|]. split; [apply moved_nil|]. apply orb_true_iff in E0. rewrite N.eqb_eq in E0. split; [|split; [auto|]].
      - destruct E0 as [E0|E0]; [left; exact E0|right; rewrite E0; reflexivity].
      - intros K. exfalso. destruct E0 as [E0|E0]; [|rewrite E0 in K; discriminate]. unfold at_end, cur in *. destruct (p_rest s0); discriminate. }
    destruct (N.eqb_spec (cur s0) chHASH) as [Eh|]; [|discriminate].
    bix Q1. bix Q1. bi Q1 bb s3 Q3. bix Q1. bix Q1. bix Q1. pose proof (incM_moved _ _ _ _ Q3 Eh ltac:(discriminate)) as M3. clear Q3. bi Q1 x s4 Q4. bix Q1. bix Q1.
    apply (f_equal snd) in Q1. cbn [snd ret] in Q1. subst s1. set (p := fun c => (negb (is_nl c) && negb (bad_comment_char c))%bool) in *.
    pose proof (adv_moved p s3) as M4. destruct (at_end (adv_while p s3) || is_nl (cur (adv_while p s3)))%bool eqn:E3; [|discriminate]. apply (f_equal snd) in Q4. cbn [snd ret] in Q4. subst s4.
    assert (C : comment ([35]%N ++ take_while p (p_rest s3))) by (eexists; split; [reflexivity|apply comment_body]).
    exists ([35]%N ++ take_while p (p_rest s3)). split; [right; exact C|]. split; [exact (moved_trans _ _ _ _ _ M3 M4)|]. apply orb_true_iff in E3. split; [exact E3|]. split; [discriminate|]. intros _. exact C. }
  destruct K as (k & K1 & K2 & K3 & K4 & K5). exists (take_while is_blank (p_rest st)), k, s1. split; [exact Hm|]. split; [exact K1|]. split; [eapply moved_trans; eassumption|]. split; [|split; [exact K3|]].
  - destruct b.
    + apply trail_gram in Q2 as (w & W1 & [[W2 ->]|(W2 & W3 & W4)]); [left; auto| |exact K3]. right. exists w. split; [exact W3|]. split; [|exact W1]. intros E. apply W4. destruct (K4 E) as [K|K]; [rewrite K in W2; discriminate|exact K].
    + apply (f_equal snd) in Q2. cbn [snd ret] in Q2. subst st'. apply moved_nil.
  - intros Hc. assert (E : take_while is_blank (p_rest st) = [] /\ cur s0 = chHASH).
    { destruct (cur_cons st _ Hc) as [r0 Hr]; [discriminate|]. unfold s0, adv_while, cur. cbn. rewrite Hr. cbn. auto. }
    destruct E as [E F]. split; [exact E|apply K5, F].
Qed.
Lemma line_gram st r st' : parse_comment_trail true st = (Ok r, st') -> exists w, moved w st st' /\ ((rest_of_line false w /\ at_end st' = true) \/ rest_of_line true w).
Proof.
  intros H. apply comment_gram in H as (m & k & s1 & Hm & Hk & M & [(E & T)|(e & E & K & T)] & _ & _).
  - exists (m ++ k). split; [rewrite <- (app_nil_r (m ++ k)); eapply moved_trans; eassumption|]. left. split.
    + destruct Hk as [->|Hk]; [rewrite app_nil_r; apply rl_end, Hm|apply rl_comment_end; assumption].
    + destruct T as [T _]. unfold at_end in *. destruct (p_rest s1); [|discriminate]. symmetry in T. destruct (p_rest st'); [reflexivity|discriminate].
  - exists ((m ++ k) ++ e). split; [eapply moved_trans; eassumption|]. right. destruct Hk as [->|Hk].
    + rewrite (K eq_refl), app_nil_r. apply rl_newline, Hm.
    + rewrite <- app_assoc. apply rl_comment; assumption.
Qed.

(** * Numbers and dates *)
Lemma not_delim c : negb (is_val_delim c) = true -> ~ delim_c c. Proof. chp. Qed.
Lemma raw_of p st : p_mark st = idx st -> extract (adv_while p st) = take_while p (p_rest st).
Proof. intros H. unfold extract. cbn. rewrite H. apply skipn_length_app. Qed.
Lemma number_nonempty raw v : parse_number raw = Some v -> raw <> []. Proof. intros H. apply parse_number_raw in H. apply H. Qed.
Lemma take_head p st : p (cur st) = true -> at_end st = false -> exists r, take_while p (p_rest st) = cur st :: r.
Proof. unfold cur, at_end. destruct (p_rest st) as [|c r]; [discriminate|]. intros H _. cbn [take_while]. rewrite H. eauto. Qed.
Lemma lit_inv k w r : lit k w = Some r -> w = [k] ++ r.
Proof. destruct w as [|c w]; [discriminate|]. cbn. destruct (N.eqb_spec c k) as [->|]; [|discriminate]. intros H. injection H as ->. reflexivity. Qed.
Definition okd (ok : char -> char -> bool) : Prop := forall a b, ok a b = true -> digit_c a /\ digit_c b.
Lemma okd_month : okd re_month. Proof. intros a b. unfold re_month, between. chp. Qed.
Lemma okd_day : okd re_day. Proof. intros a b. unfold re_day, between. chp. Qed.
Lemma okd_hour : okd re_hour. Proof. intros a b. unfold re_hour, between. chp. Qed.
Lemma okd_min : okd re_min. Proof. intros a b. unfold re_min, between. chp. Qed.
Lemma okd_sec : okd re_sec. Proof. intros a b. unfold re_sec, re_min, between. chp. Qed.
Lemma two_inv ok w n r : two ok w = Some (n, r) -> okd ok -> exists a b, w = [a; b] ++ r /\ digit_c a /\ digit_c b.
Proof.
  intros H O. destruct w as [|a [|b w]]; try discriminate. cbn in H. destruct (ok a b) eqn:E; [|discriminate]. injection H as _ <-. exists a, b. split; [reflexivity|]. apply O in E. exact E.
Qed.
Lemma date_inv w d r : m_date re_month re_day w = Some (d, r) -> exists t, w = t ++ r /\ date_text t.
Proof.
  unfold m_date. intros H. pose proof (take_drop is_ascii_digit w) as E. assert (F : Forall digit_c (take_while is_ascii_digit w)) by (apply taken; chp).
  destruct (take_while is_ascii_digit w) as [|y0 y]; [discriminate|].
  destruct (lit chMINUS _) as [r1|] eqn:F1; [|discriminate]. destruct (two re_month r1) as [[mo r2]|] eqn:F2; [|discriminate].
  destruct (lit chMINUS r2) as [r3|] eqn:F3; [|discriminate]. destruct (two re_day r3) as [[da r4]|] eqn:F4; [|discriminate]. injection H as _ <-.
  apply lit_inv in F1, F3. apply two_inv in F2 as (a & b & -> & Da & Db); [|apply okd_month]. apply two_inv in F4 as (a' & b' & -> & Da' & Db'); [|apply okd_day].
  exists ((y0 :: y) ++ [45]%N ++ [a; b] ++ [45]%N ++ [a'; b']). split.
  - rewrite <- E, F1, F3. rewrite <- !app_assoc. reflexivity.
  - exists (y0 :: y), [a; b], [a'; b']. split; [reflexivity|]. split; [discriminate|]. split; [reflexivity|]. split; [reflexivity|]. apply Forall_app. split; [exact F|]. cbn [app]. repeat (apply Forall_cons; [assumption|]). apply Forall_nil.
Qed.
Lemma digits_prefix y1 : forall y2 a b, Forall digit_c y1 -> Forall digit_c y2 -> y1 ++ 45%N :: a = y2 ++ 45%N :: b -> y1 = y2 /\ a = b.
Proof.
  induction y1 as [|c y1 IH]; intros [|d y2] a b H1 H2 E; cbn in E.
  - injection E as ->. auto.
  - injection E as <- _. inversion H2 as [|? ? K _]. revert K. chp.
  - injection E as -> _. inversion H1 as [|? ? K _]. revert K. chp.
  - injection E as -> E. inversion H1; inversion H2; subst. destruct (IH y2 a b) as [-> ->]; auto.
Qed.
Lemma date_prefix d1 d2 a b : date_text d1 -> date_text d2 -> d1 ++ a = d2 ++ b -> d1 = d2 /\ a = b.
Proof.
  intros (y1 & m1 & e1 & -> & _ & M1 & L1 & D1) (y2 & m2 & e2 & -> & _ & M2 & L2 & D2) E. apply Forall_app in D1 as [D1 _]. apply Forall_app in D2 as [D2 _].
  rewrite <- !app_assoc in E. cbn [app] in E. apply digits_prefix in E as [-> E]; [|assumption|assumption].
  destruct m1 as [|? [|? [|? ?]]]; try discriminate M1. destruct m2 as [|? [|? [|? ?]]]; try discriminate M2. destruct e1 as [|? [|? [|? ?]]]; try discriminate L1. destruct e2 as [|? [|? [|? ?]]]; try discriminate L2.
  cbn in E. injection E as -> -> -> -> ->. auto.
Qed.
Lemma clock_digit c : is_ascii_digit c = true -> clock_c c. Proof. intros H. left. revert H. chp. Qed.
Lemma two_clock ok w n r : two ok w = Some (n, r) -> okd ok -> exists t, w = t ++ r /\ Forall clock_c t /\ t <> [].
Proof. intros H O. apply two_inv in H as (a & b & -> & A & B); [|exact O]. exists [a; b]. split; [reflexivity|]. split; [repeat (apply Forall_cons; [left; assumption|]); apply Forall_nil|discriminate]. Qed.
Lemma time_inv w h m sc f r : m_time re_hour re_min re_sec w = Some (h, m, sc, f, r) -> exists t, w = t ++ r /\ Forall clock_c t /\ t <> [].
Proof.
  unfold m_time. intros H.
  destruct (two re_hour w) as [[h1 r1]|] eqn:F1; [|discriminate]. destruct (lit chCOLON r1) as [r2|] eqn:F2; [|discriminate]. destruct (two re_min r2) as [[m1 r3]|] eqn:F3; [|discriminate].
  destruct (lit chCOLON r3) as [r4|] eqn:F4; [|discriminate]. destruct (two re_sec r4) as [[s1 r5]|] eqn:F5; [|discriminate].
  apply two_clock in F1 as (t1 & -> & T1 & N1); [|apply okd_hour]. apply lit_inv in F2 as ->. apply two_clock in F3 as (t2 & -> & T2 & _); [|apply okd_min]. apply lit_inv in F4 as ->. apply two_clock in F5 as (t3 & -> & T3 & _); [|apply okd_sec].
  assert (K : exists t, r5 = t ++ r /\ Forall clock_c t).
  { destruct r5 as [|c r6]; [injection H as _ _ _ _ <-; exists []; split; [reflexivity|constructor]|]. destruct (N.eqb_spec c chDOT) as [->|].
    - pose proof (take_drop is_ascii_digit r6) as E. assert (F : Forall clock_c (take_while is_ascii_digit r6)) by (apply taken, clock_digit). destruct (take_while is_ascii_digit r6) as [|x y].
      + injection H as _ _ _ _ <-. exists []. split; [reflexivity|constructor].
      + injection H as _ _ _ _ <-. exists ([46]%N ++ (x :: y)). split; [rewrite <- E at 1; reflexivity|]. apply Forall_app. split; [|exact F]. constructor; [right; cbn; auto|constructor].
    - injection H as _ _ _ _ <-. exists []. split; [reflexivity|constructor]. }
  destruct K as (t & -> & T). exists (t1 ++ [58]%N ++ t2 ++ [58]%N ++ t3 ++ t). split; [rewrite <- !app_assoc; reflexivity|]. split; [|destruct t1; [congruence|discriminate]].
  repeat (apply Forall_app; split; try assumption); (constructor; [right; cbn; auto|constructor]).
Qed.
Lemma tz_inv w o r : m_tz w = (o, r) -> exists t, w = t ++ r /\ Forall clock_c t.
Proof.
  assert (Z : forall x : str, exists t, x = t ++ x /\ Forall clock_c t) by (intros x; exists []; split; [reflexivity|constructor]).
  unfold m_tz. destruct w as [|c w]; [intros H; injection H as _ <-; apply Z|]. destruct ((c =? 90) || (c =? 122))%N%bool eqn:Ec.
  { intros H; injection H as _ <-. exists [c]. split; [reflexivity|]. constructor; [|constructor]. right. cbn [In]. lia. }
  destruct (_ || _ || _)%bool eqn:Ed; [|intros H; injection H as _ <-; apply Z].
  destruct (two re_hour w) as [[h1 r1]|] eqn:F1; [|intros H; injection H as _ <-; apply Z]. destruct (lit chCOLON r1) as [r2|] eqn:F2; [|intros H; injection H as _ <-; apply Z].
  destruct (two re_min r2) as [[m1 r3]|] eqn:F3; [|intros H; injection H as _ <-; apply Z]. intros H. injection H as _ <-.
  apply two_clock in F1 as (t1 & -> & T1 & _); [|apply okd_hour]. apply lit_inv in F2 as ->. apply two_clock in F3 as (t2 & -> & T2 & _); [|apply okd_min].
  exists ([c] ++ t1 ++ [58]%N ++ t2). split; [cbn; rewrite <- !app_assoc; reflexivity|]. repeat (apply Forall_app; split; try assumption); (constructor; [right; cbn [In]; unfold chPLUS, chMINUS in *; lia|constructor]).
Qed.
Lemma datetime_inv w x : m_datetime w = Some x -> inb chLF w = false -> exists d c t, w = d ++ [c] ++ t /\ date_text d /\ Forall clock_c t /\ t <> [] /\ (c = 84 \/ c = 116 \/ c = 32)%N.
Proof.
  unfold m_datetime. intros H Hn. destruct (m_date re_month re_day w) as [[d1 r]|] eqn:Ed; [|discriminate]. apply date_inv in Ed as (d & -> & D).
  destruct r as [|c r]; [discriminate|]. destruct (_ || _)%bool eqn:Ec; [|discriminate].
  destruct (m_time _ _ _ r) as [[[[[h m] sc] f] r1]|] eqn:Et; [|discriminate]. destruct (m_tz r1) as [o r2] eqn:Ez. destruct (re_end r2) eqn:Ee; [|discriminate].
  apply time_inv in Et as (t1 & -> & T1 & N1). apply tz_inv in Ez as (t2 & -> & T2). exists d, c, (t1 ++ t2).
  assert (r2 = []) as ->.
  { destruct r2 as [|x0 [|? ?]]; [reflexivity| |discriminate Ee]. exfalso. cbn in Ee. apply N.eqb_eq in Ee as ->. revert Hn. rewrite inb_app. change (c :: t1 ++ t2 ++ [chLF]) with ([c] ++ t1 ++ t2 ++ [chLF]). rewrite !inb_app. cbn [inb existsb]. rewrite !orb_true_r. discriminate. }
  rewrite app_nil_r. split; [reflexivity|]. split; [exact D|]. split; [apply Forall_app; auto|]. split; [destruct t1; [congruence|discriminate]|]. unfold chSP in Ec. lia.
Qed.
Lemma rfc_date w d : parse_rfc3339 w = Ok (RDate d) -> inb chLF w = false -> date_text w.
Proof.
  unfold parse_rfc3339. intros H Hn. destruct (m_datetime w) as [[[d0 t] tz]|]; [destruct (py_datetime _ _ _); discriminate|].
  destruct (m_date re_month re_day w) as [[d1 r]|] eqn:Ed.
  - apply date_inv in Ed as (t & -> & D). destruct (re_end r) eqn:Ee.
    + destruct r as [|x0 [|? ?]]; [rewrite app_nil_r; exact D| |discriminate Ee]. exfalso. cbn in Ee. apply N.eqb_eq in Ee as ->. revert Hn. rewrite inb_app. cbn. rewrite orb_true_r. discriminate.
    + destruct (match m_time _ _ _ _ with Some _ => _ | None => _ end); [destruct (py_time _)|]; discriminate.
  - destruct (match m_time _ _ _ _ with Some _ => _ | None => _ end); [destruct (py_time _)|]; discriminate.
Qed.
Lemma rfc_datetime w d : parse_rfc3339 w = Ok (RDateTime d) -> exists x, m_datetime w = Some x.
Proof.
  unfold parse_rfc3339. destruct (m_datetime w) as [x|]; [eauto|].
  destruct (match m_date _ _ _ with Some _ => _ | None => _ end); [destruct (py_date _); discriminate|]. destruct (match m_time _ _ _ _ with Some _ => _ | None => _ end); [destruct (py_time _)|]; discriminate.
Qed.
Lemma value_error_inv {A} k (r : res A) st a st' : value_error k r st = (Ok a, st') -> r = Ok a /\ st' = st.
Proof. destruct r as [x|e]; cbn; [intros H; injection H as -> ->; auto|]. destruct e; discriminate. Qed.
Lemma no_nl p w : (forall c, p c = true -> c <> chLF) -> inb chLF (take_while p w) = false.
Proof.
  intros H. destruct (inb chLF (take_while p w)) eqn:E; [|reflexivity]. apply inb_In in E. exfalso. pose proof (take_while_all p w) as F. rewrite Forall_forall in F. apply (H _ (F _ E)). reflexivity.
Qed.
Definition wordc (c : char) : Prop := ~ delim_c c /\ ~ punct_c c /\ (c <= 27 -> 11 <= c <= 12)%N /\ c <> 127%N.
Lemma word_chars p w : (forall c, p c = true -> ~ delim_c c) -> Forall WordChars.soft (take_while p w) -> Forall wordc (take_while p w).
Proof.
  intros P H. pose proof (take_while_all p w) as F. apply Forall_forall. intros c Hc. rewrite Forall_forall in H, F. specialize (H _ Hc). specialize (P _ (F _ Hc)). clear -H P.
  unfold wordc, WordChars.soft, WordChars.hard, punct_c, delim_c, space_c, blank_c, newline_c in *. lia.
Qed.
Lemma digit_word p st : (forall c, is_ascii_digit c = true -> p c = true) -> (forall c, p c = true -> ~ delim_c c) -> is_ascii_digit (cur st) = true -> Forall WordChars.soft (take_while p (p_rest st)) -> word (take_while p (p_rest st)).
Proof.
  intros P1 P2 Hd Hs. assert (E : at_end st = false). { unfold at_end, cur in *. destruct (p_rest st); [discriminate|reflexivity]. }
  destruct (take_head p st (P1 _ Hd) E) as [r Hr]. split; [apply word_chars; assumption|]. left. exists (cur st), r. split; [exact Hr|]. left. revert Hd. chp.
Qed.
Lemma digit_gram lax st v st' : p_mark st = idx st -> is_ascii_digit (cur st) = true -> parse_digit_value st = (Ok v, st') -> exists w, moved w st st' /\ value_text lax w.
Proof.
  intros Hm Hd H. unfold parse_digit_value in H. bix H. bix H. rewrite (raw_of _ _ Hm) in H. set (p := fun c => negb (is_val_delim c)) in *. pose proof (adv_moved p st) as M0.
  assert (W : Forall WordChars.soft (take_while p (p_rest st)) -> word (take_while p (p_rest st))) by (apply digit_word; [unfold p; chp|unfold p; chp|exact Hd]).
  assert (Hnl : inb chLF (take_while p (p_rest st)) = false) by (apply no_nl; unfold p; intros c Hc ->; discriminate).
  assert (Plain : Forall WordChars.soft (take_while p (p_rest st)) -> adv_while p st = st' -> exists w, moved w st st' /\ value_text lax w). { intros F <-. eexists. split; [exact M0|]. apply vt_word, W, F. }
  assert (Hraw : match drop_while p (p_rest st) with [] => True | c :: _ => p c = false end) by apply drop_head.
  assert (Hr : p_rest (adv_while p st) = drop_while p (p_rest st)) by reflexivity.
  revert H M0 W Hnl Plain Hraw Hr. generalize (take_while p (p_rest st)). intros raw H M0 W Hnl Plain Hraw Hr.
  set (s1 := adv_while p st) in *. clearbody s1. destruct (loose_match raw) as [[[|] [|]]|].
  - bi H dt s2 Q. apply value_error_inv in Q as [Q ->]. destruct dt; try discriminate. apply (f_equal snd) in H. apply Plain; [eapply WordChars.rfc_soft, Q|exact H].
  - bi H dt s2 Q. apply value_error_inv in Q as [Qd ->]. destruct dt as [| |d]; try discriminate.
    all: match type of Qd with _ = Ok (RDate _) => idtac | _ => discriminate H end.
    bix H. bix H. bix H. rewrite raw_of in H by reflexivity. cbv zeta in H. cbn [set_mark p_rest] in H. apply rfc_date in Qd; [|exact Hnl].
    set (q := fun c => negb (is_date_stop c)) in *. pose proof (adv_moved q (set_mark s1)) as M1. cbn [set_mark p_rest] in M1.
    assert (Hnl2 : inb chLF (take_while q (p_rest s1)) = false) by (apply no_nl; unfold q; intros c Hc ->; discriminate).
    destruct (Control.rstrip_split py_isspace (take_while q (p_rest s1))) as (z & Ez & Hz). fold (rstrip (take_while q (p_rest s1))) in Ez.
    pose proof (moved_trans _ _ _ _ _ M0 M1) as M2.
    assert (F : snd (Ok v, st') = adv_while q (set_mark s1) /\ (rstrip (take_while q (p_rest s1)) = [] \/ exists x, m_datetime (raw ++ rstrip (take_while q (p_rest s1))) = Some x)).
    { destruct (rstrip (take_while q (p_rest s1))) as [|c0 tp]; [rewrite <- H; split; [reflexivity|left; reflexivity]|]. bi H dt2 s2 Q. apply value_error_inv in Q as [Q ->]. destruct dt2; try discriminate.
      all: match type of Q with _ = Ok (RDateTime _) => idtac | _ => discriminate H end. rewrite <- H. split; [reflexivity|right; apply rfc_datetime in Q; exact Q]. }
    destruct F as [F1 F2]. cbn [snd] in F1. subst st'. exists (raw ++ take_while q (p_rest s1)). split; [exact M2|]. rewrite Ez. clear H M1 M2.
    destruct F2 as [F2|[x F2]]; [rewrite F2; apply vt_date; assumption|].
    set (tp := rstrip (take_while q (p_rest s1))) in *.
    assert (Hnl3 : inb chLF (raw ++ tp) = false).
    { rewrite inb_app, Hnl. cbn [orb]. rewrite Ez, inb_app in Hnl2. apply orb_false_iff in Hnl2. apply Hnl2. }
    destruct (datetime_inv _ _ F2 Hnl3) as (d2 & c & t & Edt & D2 & T1 & T2 & Hc). apply date_prefix in Edt as [-> Etp]; [|exact Qd|exact D2]. rewrite Etp in *.
    assert (c = 32%N) as ->.
    { rewrite Hr in Ez. destruct (drop_while p (p_rest st)) as [|c0 r0]; [discriminate Ez|]. cbn [take_while] in Ez. destruct (q c0); [|discriminate Ez]. cbn [app] in Ez. injection Ez as -> _. clear -Hraw Hc. unfold p in Hraw. revert Hraw Hc. chp. }
    rewrite <- !app_assoc. apply vt_datetime; assumption.
  - bi H dt s2 Q. apply value_error_inv in Q as [Q ->]. destruct dt; try discriminate. apply (f_equal snd) in H. apply Plain; [eapply WordChars.rfc_soft, Q|exact H].
  - destruct (parse_number raw) eqn:En; [|discriminate]. apply (f_equal snd) in H. apply Plain; [eapply WordChars.parse_number_soft, En|exact H].
  - destruct (parse_number raw) eqn:En; [|discriminate]. apply (f_equal snd) in H. apply Plain; [eapply WordChars.parse_number_soft, En|exact H].
Qed.
Lemma peek_inv n : forall rest w, peek_loop n rest = w -> exists r, rest = w ++ r /\ (List.length w < n -> match r with [] => True | c :: _ => is_val_delim c || (c =? chNUL)%N = true end) /\ Forall (fun c => is_val_delim c = false) w.
Proof.
  induction n as [|n IH]; intros rest w H; [cbn in H; subst; exists rest; split; [reflexivity|]; split; [cbn; lia|constructor]|].
  destruct rest as [|c r]; cbn [peek_loop] in H; [subst; exists []; split; [reflexivity|]; split; [auto|constructor]|].
  destruct (is_val_delim c || (c =? chNUL)%N)%bool eqn:E; [subst; exists (c :: r); split; [reflexivity|]; split; [auto|constructor]|].
  subst w. destruct (IH r _ eq_refl) as (x & X1 & X2 & X3). exists x. split; [cbn; rewrite <- X1; reflexivity|]. split; [cbn; intros; apply X2; lia|]. apply orb_false_iff in E as [E _]. constructor; assumption.
Qed.
Lemma take_app p w : forall r, Forall (fun c => p c = true) w -> match r with [] => True | c :: _ => p c = false end -> take_while p (w ++ r) = w.
Proof.
  induction w as [|c w IH]; intros r Hw Hr; cbn [app].
  - destruct r as [|d r]; [reflexivity|]. cbn. rewrite Hr. reflexivity.
  - inversion Hw; subst. cbn [take_while]. rewrite H1, IH; auto.
Qed.
Lemma soft_no_nul w r : ~ Forall soft (w ++ chNUL :: r).
Proof. intros H. apply Forall_app in H as [_ H]. inversion H. discriminate. Qed.
Lemma signed_gram lax st v st' : p_mark st = idx st -> cur st = chPLUS \/ cur st = chMINUS \/ existsb (str_eqb (peek_loop 4 (p_rest st))) special_floats = true ->
  parse_signed_value st = (Ok v, st') -> exists w, moved w st st' /\ value_text lax w.
Proof.
  intros Hm Hc H. unfold parse_signed_value in H. bix H. bix H. rewrite (raw_of _ _ Hm) in H. set (p := fun c => negb (is_val_delim c)) in *. pose proof (adv_moved p st) as M0.
  destruct (parse_number _) as [x|] eqn:En; [|discriminate]. apply (f_equal snd) in H. cbn [snd ret] in H. subst st'. eexists. split; [exact M0|]. apply vt_word. split; [apply word_chars; [unfold p; chp|eapply WordChars.parse_number_soft, En]|].
  pose proof (number_nonempty _ _ En) as Hn. pose proof (parse_number_soft _ _ En) as Hs.
  assert (Sign : cur st = chPLUS \/ cur st = chMINUS -> exists c r, take_while p (p_rest st) = c :: r /\ (digit_c c \/ c = 43%N \/ c = 45%N)).
  { intros K. destruct (take_head p st) as [r Hr]; [destruct K as [-> | ->]; reflexivity|unfold at_end, cur in *; destruct (p_rest st); [destruct K; discriminate|reflexivity]|]. exists (cur st), r. split; [exact Hr|]. right. exact K. }
  destruct Hc as [Hc|[Hc|Hc]]; [left; auto|left; auto|]. apply existsb_exists in Hc as (f & Hf & Ef). apply str_eqb_eq in Ef.
  destruct (peek_inv _ _ _ Ef) as (r & R1 & R2 & _).
  assert (Spec : forall w, Forall (fun c => p c = true) w -> p_rest st = w ++ r -> List.length w = 3 -> (List.length w < 4 -> match r with [] => True | c :: _ => is_val_delim c || (c =? chNUL)%N = true end) -> take_while p (p_rest st) = w).
  { clear R1 R2 Hf Ef. intros w Hw E Hl R. assert (L4 : List.length w < 4) by lia. specialize (R L4). rewrite E in *. destruct r as [|c r]; [apply take_app; [exact Hw|exact I]|]. apply orb_true_iff in R. destruct R as [R|R].
    - apply take_app; [exact Hw|]. unfold p. rewrite R. reflexivity.
    - apply N.eqb_eq in R as ->. exfalso. revert Hs. replace (take_while p (w ++ chNUL :: r)) with (w ++ chNUL :: take_while p r); [apply soft_no_nul|]. clear -Hw. induction Hw as [|c w Hc Hw IH]; cbn [app take_while].
      + change (p chNUL) with true. reflexivity.
      + rewrite Hc, <- IH. reflexivity. }
  assert (Hd : hd_error f = Some chPLUS \/ hd_error f = Some chMINUS -> exists c r, take_while p (p_rest st) = c :: r /\ (digit_c c \/ c = 43%N \/ c = 45%N)).
  { intros K. apply Sign. unfold cur. rewrite R1. destruct f as [|c f]; [destruct K; discriminate|]. cbn in K |- *. destruct K as [K|K]; injection K as ->; auto. }
  cbn [special_floats In] in Hf. destruct Hf as [Hf|[Hf|[Hf|[Hf|[Hf|[Hf|[]]]]]]]; subst f; try (left; apply Hd; cbn; auto; fail).
  - right; left. apply Spec; [repeat constructor|exact R1|reflexivity|exact R2].
  - right; right. apply Spec; [repeat constructor|exact R1|reflexivity|exact R2].
Qed.

(** * Values *)
Definition quiet {A} (m : M A) : Prop := forall st e st', m st = (Err e, st') -> ~ uerr e.
Lemma quiet_bind {A B} (m : M A) (f : A -> M B) : quiet m -> (forall a, quiet (f a)) -> quiet (bind m f).
Proof. intros Hm Hf st e st' H. apply bind_inv_err in H as [H|(a & s1 & _ & H)]; [eapply Hm|eapply Hf]; exact H. Qed.
Lemma quiet_ret {A} (a : A) : quiet (ret a). Proof. intros st e st' H. discriminate. Qed.
Lemma quiet_raise {A} k : match k with KUnexpectedChar _ => False | _ => True end -> quiet (@raise A k).
Proof. intros H st e st' E. injection E as <- _. intros U. apply uerr_pe in U. destruct k; contradiction. Qed.
Lemma quiet_ok {A} (m : M A) : (forall st, exists a s, m st = (Ok a, s)) -> quiet m.
Proof. intros H st e st' E. destruct (H st) as (a & s & K). rewrite K in E. discriminate. Qed.
Lemma quiet_inc_exn k : match k with KUnexpectedChar _ => False | _ => True end -> quiet (inc_exn k).
Proof. intros H st e st' E. unfold inc_exn in E. destruct (inc st) as [[|] s]; [discriminate|]. injection E as <- _. intros U. apply uerr_pe in U. destruct k; contradiction. Qed.
Lemma quiet_rfc k w : match k with KUnexpectedChar _ => False | _ => True end -> quiet (value_error k (parse_rfc3339 w)).
Proof.
  intros H st e st' E. unfold value_error in E. destruct (parse_rfc3339 w) as [a|x] eqn:Er; [discriminate|]. apply rfc_err in Er as [->|[-> _]]; [|injection E as <- _; intros []].
  injection E as <- _. intros U. apply uerr_pe in U. destruct k; contradiction.
Qed.
Ltac quiet := repeat first [ apply quiet_bind; [|intros ?] | apply quiet_ret | apply quiet_raise; exact I | apply quiet_rfc; exact I | apply quiet_inc_exn; exact I | apply quiet_ok; intros ?; eexists; eexists; reflexivity
  | match goal with |- quiet (match ?x with _ => _ end) => destruct x end | progress cbv zeta ].
Lemma quiet_digit : quiet parse_digit_value. Proof. unfold parse_digit_value. quiet. Qed.
Lemma quiet_signed : quiet parse_signed_value. Proof. unfold parse_signed_value. quiet. Qed.

Lemma gap_pre w g : Forall space_c w -> gap g -> gap (w ++ g).
Proof.
  intros Hw Hg. destruct Hg as [x Hx|x k c r Hx Hk Hc Hr]; [apply gap_ws, Forall_app; auto|]. rewrite app_assoc. apply gap_comment; [apply Forall_app; auto| | |]; assumption.
Qed.
Definition headok (t : str) : Prop := match t ++ [93]%N with [] => True | c :: _ => is_ws c = false end.
Lemma head_ok t st st' : moved (t ++ [93]%N) st st' -> match p_rest st with [] => True | c :: _ => is_ws c = false end -> headok t.
Proof. intros [E _] H. rewrite E in H. unfold headok. destruct t; exact H. Qed.
Section Values.
Context (s : bool).
Definition atail (prev : option bool) (t : str) : Prop :=
  match prev with
  | Some true => t = [] \/ exists r, t = [44]%N ++ r /\ elems (negb s) false r
  | _ => t = [] \/ (exists v r, t = v ++ r /\ value_text (negb s) v /\ elems (negb s) true r) \/ s = false /\ exists j, t = 123%N :: j
  end.
Lemma atail_elems prev g t : gap g -> atail prev t -> elems (negb s) (match prev with Some true => true | _ => false end) (g ++ t).
Proof.
  intros Hg H. destruct prev as [[|]|]; cbn [atail] in H.
  - destruct H as [->|(r & -> & R)]; [rewrite app_nil_r; apply el_end, Hg|apply el_comma; assumption].
  - destruct H as [->|[(v & r & -> & V & R)|(Hs & j & ->)]]; [rewrite app_nil_r; apply el_end, Hg|apply el_value; assumption|apply el_dropped; [rewrite Hs; reflexivity|exact Hg]].
  - destruct H as [->|[(v & r & -> & V & R)|(Hs & j & ->)]]; [rewrite app_nil_r; apply el_end, Hg|apply el_value; assumption|apply el_dropped; [rewrite Hs; reflexivity|exact Hg]].
Qed.
Definition VP n := forall st r st', parse_value s n st = (r, st') ->
  match r with Ok _ => exists w, moved w st st' /\ value_text (negb s) w | Err e => uerr e -> moved [] st st' \/ cur st' <> chRBR \/ cur st = chLCB end.
Definition AP n := forall el prev st r st', array_loop s n el prev st = (r, st') ->
  match r with Ok _ => exists g t, moved (g ++ t ++ [93]%N) st st' /\ gap g /\ atail prev t /\ headok t | Err e => uerr e -> cur st' <> chRBR end.
Definition IP n := forall c tc st v st', inline_loop s n c tc st = (Ok v, st') ->
  exists w, moved (w ++ [125]%N) st st' /\ match tc with None => blanks w \/ pairs (negb s) w | Some true => pairs (negb s) w | Some false => blanks w end.
Lemma add_elem_state c k it st r st' : add_elem s c k it st = (r, st') -> st' = st.
Proof. unfold add_elem, lift. intros H. injection H as _ <-. reflexivity. Qed.
Lemma kv_gram pv n b st r st' : (forall st v st', pv st = (Ok v, st') -> exists w, moved w st st' /\ value_text (negb s) w) -> key_value_with s pv n b st = (Ok r, st') ->
  exists a k q v s1, blanks a /\ key_text k /\ sep_text q /\ value_text (negb s) v /\ moved (a ++ k ++ q ++ v) st s1 /\ if b then exists ctr, parse_comment_trail true s1 = (Ok ctr, st') else st' = s1.
Proof.
  intros Hv H. unfold key_value_with in H. bix H. bix H. bix H. destruct (moved_blanks (set_mark st)) as (a & Ha & Ma). bi H k0 s1 Q1. apply key_gram in Q1 as (k & K1 & K2).
  bi H sp s2 Q2. apply sep_gram in Q2 as (q & P1 & P2). bi H v0 s3 Q3. apply Hv in Q3 as (v & V1 & V2). cbv zeta in H. bi H t s4 Q4. apply (f_equal snd) in H. cbn [snd ret] in H. subst s4.
  exists a, k, q, v, s3. split; [exact Ha|]. split; [exact K2|]. split; [exact P2|]. split; [exact V2|]. split.
  { eapply moved_trans; [exact Ma|]. eapply moved_trans; [exact K1|]. eapply moved_trans; [exact P1|exact V1]. }
  destruct b.
  - bi Q4 ctr s4 Q5. destruct ctr as [[cws cm] tr]. bi Q4 u s5 Q6. apply lossy_inv in Q6 as [_ ->]. apply (f_equal snd) in Q4. cbn [snd ret] in Q4. subst s4. eauto.
  - bi Q4 u s5 Q6. apply lossy_inv in Q6 as [_ ->]. apply (f_equal snd) in Q4. cbn [snd ret] in Q4. auto.
Qed.
Lemma VP_ok n : VP n -> forall st v st', parse_value s n st = (Ok v, st') -> exists w, moved w st st' /\ value_text (negb s) w.
Proof. intros H st v st' E. apply (H _ _ _ E). Qed.
Lemma VP_step n : AP n -> IP n -> VP (S n).
Proof.
  intros HA HI st r st' H. cbn [parse_value] in H. bix H. bix H. change (cur (set_mark st)) with (cur st) in H.
  assert (Str : forall d, st_multiline d = false -> bind (restore_on_err (parse_string n d)) (fun v => ret (str_item v)) (set_mark st) = (r, st') ->
    match r with Ok _ => exists w, moved w st st' /\ value_text (negb s) w | Err e => uerr e -> moved [] st st' \/ cur st' <> chRBR \/ cur st = chLCB end).
  { intros d Hd E. unfold restore_on_err in E. unfold bind in E. destruct (parse_string n d (set_mark st)) as [[v|e] s1] eqn:Q.
    - injection E as <- <-. apply string_gram in Q as (ml & w & W1 & W2 & _); [|exact Hd]. exists w. split; [exact W1|]. eapply vt_string, W2.
    - injection E as <- <-. intros _. left. apply moved_refl; reflexivity. }
  destruct (N.eqb_spec (cur st) chDQ) as [_|N1]; [apply (Str SLB eq_refl H)|]. destruct (N.eqb_spec (cur st) chSQ) as [_|N2]; [apply (Str SLL eq_refl H)|]. clear Str.
  assert (Bool : forall b, parse_bool b (set_mark st) = (r, st') -> match r with Ok _ => exists w, moved w st st' /\ value_text (negb s) w | Err e => uerr e -> moved [] st st' \/ cur st' <> chRBR \/ cur st = chLCB end).
  { intros b E. destruct r as [v|e].
    - apply bool_inv in E as [_ E]. exists (bool_text b). split; [exact E|]. destruct b; constructor.
    - unfold parse_bool, restore_on_err in E. destruct (bind _ _ _) as [[v|e0] s1]; [discriminate|]. injection E as _ <-. intros _. left. apply moved_refl; reflexivity. }
  destruct (N.eqb_spec (cur st) 116) as [_|N3]; [apply (Bool true H)|]. destruct (N.eqb_spec (cur st) 102) as [_|N4]; [apply (Bool false H)|]. clear Bool.
  destruct (N.eqb_spec (cur st) chLBR) as [Ec|N5].
  { destruct r as [v|e].
    - bi H u s1 Q. apply inc_exn_moved in Q. change (cur (set_mark st)) with (cur st) in Q. rewrite Ec in Q. apply HA in H as (g & t & M & G & T & _). exists ([91]%N ++ (g ++ t) ++ [93]%N). split.
      + rewrite <- app_assoc. exact (moved_trans _ _ _ _ _ Q M).
      + apply vt_array, (atail_elems None _ _ G T).
    - intros U. right; left. apply bind_inv_err in H as [H|(u & s1 & _ & H)]; [|apply HA in H; apply H, U]. apply (quiet_inc_exn KUnexpectedEof I) in H. contradiction. }
  destruct (N.eqb_spec (cur st) chLCB) as [Ec|N6].
  { destruct r as [v|e]; [|auto]. bi H u s1 Q. apply inc_exn_moved in Q. change (cur (set_mark st)) with (cur st) in Q. rewrite Ec in Q. apply HI in H as (w & M & W). exists ([123]%N ++ w ++ [125]%N). split.
    - exact (moved_trans _ _ _ _ _ Q M).
    - destruct W as [W|W]; [apply vt_empty, W|apply vt_inline, W]. }
  change (bind (peek 4) ?f (set_mark st)) with (f (peek_loop 4 (p_rest st)) (set_mark st)) in H. cbv beta in H.
  destruct ((cur st =? chPLUS)%N || (cur st =? chMINUS)%N || _)%bool eqn:F0.
  { destruct r as [v|e]; [|intros U; apply quiet_signed in H; contradiction]. apply (signed_gram (negb s)) in H; [exact H|reflexivity|].
    apply orb_true_iff in F0 as [F|F]; [|right; right; exact F]. apply orb_true_iff in F. rewrite !N.eqb_eq in F. destruct F; auto. }
  destruct (is_ascii_digit (cur st)) eqn:Ed.
  { destruct r as [v|e]; [|intros U; apply quiet_digit in H; contradiction]. apply (digit_gram (negb s)) in H; [exact H|reflexivity|exact Ed]. }
  injection H as <- <-. intros _. left. apply moved_refl; reflexivity.
Qed.
Lemma quiet_comment b st e st' : cur st = chHASH -> parse_comment_trail b st = (Err e, st') -> ~ uerr e.
Proof.
  intros Hc H. unfold parse_comment_trail in H. bix H. destruct (at_end st) eqn:Ee; [discriminate|]. bix H. bix H. bix H. bix H.
  assert (E0 : cur (adv_while is_blank (set_mark st)) = chHASH /\ at_end (adv_while is_blank (set_mark st)) = false).
  { destruct (cur_cons st _ Hc) as [r0 Hr]; [discriminate|]. unfold adv_while, cur, at_end. cbn. rewrite Hr. cbn. auto. }
  destruct E0 as [E0 E0']. rewrite E0, E0' in H. cbn [orb] in H. change (chHASH =? chLF)%N with false in H. change (chHASH =? chHASH)%N with true in H. cbv iota in H. revert H. generalize (adv_while is_blank (set_mark st)). intros s0 H.
  revert e st' H. match goal with |- forall e st', ?m s0 = _ -> _ => enough (Q : quiet m) by (intros e st' H; apply (Q _ _ _ H)) end.
  assert (quiet parse_trail) by (unfold parse_trail; assert (quiet incM) by (apply quiet_ok; intros x; unfold incM; destruct (inc x); eauto); quiet; try assumption).
  assert (quiet incM) by (apply quiet_ok; intros x; unfold incM; destruct (inc x); eauto).
  quiet; try assumption.
Qed.
Lemma AP_step n : VP n -> AP n -> AP (S n).
Proof.
  intros HV HA el prev st r st' H. cbn [array_loop] in H. bix H. bix H. bix H. bix H. destruct (since_adv is_ws st) as [Ei _]. rewrite Ei in H. clear Ei.
  pose proof (adv_moved is_ws st) as M0. assert (Hi : Forall space_c (take_while is_ws (p_rest st))) by (apply taken; chp).
  pose proof (drop_head is_ws (p_rest st)) as Hh. change (drop_while is_ws (p_rest st)) with (p_rest (adv_while is_ws st)) in Hh.
  revert H M0 Hi Hh. generalize (take_while is_ws (p_rest st)) (adv_while is_ws st). intros ind s1 H M0 Hi Hh.
  assert (Ws : forall e, array_loop s n e prev s1 = (r, st') -> match r with Ok _ => exists g t, moved (g ++ t ++ [93]%N) st st' /\ gap g /\ atail prev t /\ headok t | Err e => uerr e -> cur st' <> chRBR end).
  { intros e E. apply HA in E. destruct r as [v|x]; [|exact E]. destruct E as (g & t & M & G & T & HH). exists (ind ++ g), t. split; [rewrite <- app_assoc; eapply moved_trans; eassumption|]. split; [apply gap_pre; assumption|]. auto. }
  destruct (existsb is_nl ind); [eapply Ws, H|]. destruct (N.eqb_spec (cur s1) chHASH) as [Ec|Nc].
  - destruct r as [v|e].
    + bi H ctr0 s2 Q. destruct ctr0 as [[cws cm] tr]. apply comment_gram in Q as (m & k & s3 & _ & _ & M1 & M2 & K & Q). destruct (Q Ec) as [-> Ck]. cbn [app] in M1.
      apply HA in H as (g & t & M & G & T & HH). pose proof (moved_trans _ _ _ _ _ M2 M) as M3. cbn [app] in M3.
      assert (Hg : exists c g', g = c :: g' /\ newline_c c).
      { destruct M3 as [M3 _]. unfold at_end, cur in K. destruct g as [|c g].
        - exfalso. cbn [app] in M3. unfold headok in HH. destruct (t ++ [93]%N) as [|c x] eqn:Et; [destruct t; discriminate|]. rewrite M3 in K. cbn [app] in K. destruct K as [K|K]; [discriminate|]. revert HH K. chp.
        - exists c, g. split; [reflexivity|]. rewrite M3 in K. cbn [app] in K. destruct K as [K|K]; [discriminate|]. revert K. chp. }
      destruct Hg as (c & g' & -> & Hc). exists (ind ++ k ++ (c :: g')), t. split.
      * rewrite <- !app_assoc. eapply moved_trans; [exact M0|]. eapply moved_trans; [exact M1|exact M3].
      * split; [apply gap_comment; assumption|]. auto.
    + apply bind_inv_err in H as [H|(ctr0 & s2 & _ & H)].
      * intros U. apply quiet_comment in H; [contradiction|exact Ec].
      * destruct ctr0 as [[cws cm] tr]. apply HA in H. exact H.
  - destruct (nonempty ind) eqn:Ne; [eapply Ws, H|]. clear Ws. apply nonempty_false in Ne as ->. cbv zeta in H.
    set (next := bind current (fun c => if match prev with Some true => (c =? chCOMMA)%N | _ => false end
      then bind (inc_exn KUnexpectedEof) (fun _ => array_loop s n (el ++ [EWs [chCOMMA]]) (Some false))
      else if (c =? chRBR)%N then bind incM (fun _ => ret (IArray (group_values el) default_trivia false)) else raise (KUnexpectedChar c))) in H.
    assert (Nx : forall s2, cur s2 = cur s1 \/ prev <> Some true -> next s2 = (r, st') -> match r with
       | Ok _ => (prev = Some true /\ exists rr, moved ([44]%N ++ rr ++ [93]%N) s2 st' /\ elems (negb s) false rr) \/ moved [93]%N s2 st' | Err e => uerr e -> cur st' <> chRBR end).
    { intros s2 _ E. unfold next in E. bix E. destruct (match prev with Some true => (cur s2 =? chCOMMA)%N | _ => false end) eqn:E0.
      - assert (prev = Some true) as -> by (destruct prev as [[|]|]; [reflexivity|discriminate|discriminate]). apply N.eqb_eq in E0. destruct r as [v|e].
        + bi E u s3 Q. apply inc_exn_moved in Q. rewrite E0 in Q. apply HA in E as (g & t & M & G & T & _). left. split; [reflexivity|]. exists (g ++ t). split; [rewrite <- (app_assoc g); exact (moved_trans _ _ _ _ _ Q M)|]. apply (atail_elems (Some false) _ _ G T).
        + apply bind_inv_err in E as [E|(u & s3 & _ & E)]; [intros U; apply (quiet_inc_exn KUnexpectedEof I) in E; contradiction|]. apply HA in E. exact E.
      - destruct (N.eqb_spec (cur s2) chRBR) as [Ec|Nr].
        + destruct r as [v|e]; [|apply bind_inv_err in E as [E|(u & s3 & _ & E)]; [unfold incM in E; destruct (inc s2); discriminate|discriminate]].
          bi E u s3 Q. apply (f_equal snd) in E. cbn [snd ret] in E. subst s3. right. exact (incM_moved _ _ _ _ Q Ec ltac:(discriminate)).
        + injection E as <- <-. intros _. exact Nr. }
    assert (Fin : forall t, match r with Ok _ => moved (t ++ [93]%N) s1 st' /\ atail prev t | Err e => uerr e -> cur st' <> chRBR end -> match r with Ok _ => exists g t, moved (g ++ t ++ [93]%N) st st' /\ gap g /\ atail prev t /\ headok t | Err e => uerr e -> cur st' <> chRBR end).
    { intros t E. destruct r; [|exact E]. destruct E as [M T]. exists [], t. split; [exact (moved_trans _ _ _ _ _ M0 M)|]. split; [apply gap_ws; constructor|]. split; [exact T|]. eapply head_ok; eassumption. }
    assert (PV : prev <> Some true -> match parse_value s n s1 with
              | (Ok v, st') => if s && nonempty (tr_cws (item_trivia v)) then (Err (LossyE 2), st') else array_loop s n (el ++ [EVal v]) (Some true) st'
              | (Err (ParseErr (KUnexpectedChar _) _ _), st') => if s && negb (Nat.eqb (idx st') (idx s1)) && (cur st' =? chRBR)%N then (Err (LossyE 4), st') else next st'
              | (Err e, st') => (Err e, st') end%bool = (r, st') ->
       match r with Ok _ => exists g t, moved (g ++ t ++ [93]%N) st st' /\ gap g /\ atail prev t /\ headok t | Err e => uerr e -> cur st' <> chRBR end).
    { clear H. intros Np H.
      assert (AT : forall t, t = [] \/ (exists v r, t = v ++ r /\ value_text (negb s) v /\ elems (negb s) true r) \/ (s = false /\ exists j, t = 123%N :: j) -> atail prev t) by (intros t; destruct prev as [[|]|]; [congruence|auto|auto]).
      destruct (parse_value s n s1) as [[v|e] s2] eqn:Q.
      * apply (VP_ok n HV) in Q as (w & W1 & W2). destruct (s && _)%bool; [injection H as <- <-; intros []|]. apply HA in H. destruct r as [x|e]; [|exact H]. destruct H as (g & t & M & G & T & _).
        apply (Fin (w ++ (g ++ t))). split; [rewrite <- !app_assoc in *; eapply moved_trans; eassumption|]. apply AT. right; left. exists w, (g ++ t). split; [reflexivity|]. split; [exact W2|]. apply (atail_elems (Some true) _ _ G T).
      * pose proof (HV _ _ _ Q) as HE. cbn beta iota in HE. pose proof (good_value s n s1) as G. rewrite Q in G. cbn [snd] in G. destruct G as [w G].
        assert (D : (uerr e /\ (if s && negb (Nat.eqb (idx s2) (idx s1)) && (cur s2 =? chRBR)%N then (Err (LossyE 4), s2) else next s2)%bool = (r, st')) \/ (~ uerr e /\ r = Err e)).
        { destruct e; try (right; injection H as <- _; split; [intros []|reflexivity]). match goal with k : pkind |- _ => destruct k end; try (right; injection H as <- _; split; [intros []|reflexivity]). left. split; [exact I|exact H]. }
        clear H. destruct D as [[U H]|[U ->]]; [|intros K; contradiction]. specialize (HE U). destruct (s && _ && _)%bool eqn:Es; [injection H as <- _; intros []|].
        specialize (Nx s2 (or_intror Np) H). destruct r as [v|x]; [|apply (Fin []), Nx]. destruct Nx as [(K & _)|M]; [contradiction|].
        assert (Cr : cur s2 = chRBR) by (destruct M as [M _]; unfold cur; rewrite M; reflexivity).
        destruct HE as [HE|[HE|HE]].
        -- apply (Fin []). split; [exact (moved_trans _ _ _ _ _ HE M)|apply AT; left; reflexivity].
        -- contradiction.
        -- destruct w as [|c w]; [exfalso; destruct G as [G _]; unfold cur in HE, Cr; rewrite G in HE; cbn [app] in HE; rewrite HE in Cr; discriminate|].
           apply (Fin (c :: w)). split; [exact (moved_trans _ _ _ _ _ G M)|]. apply AT. right; right. split; [apply moved_idx in G; rewrite Cr in Es; clear -Es G; destruct s; [|reflexivity]; exfalso; cbn [List.length] in G; destruct (Nat.eqb_spec (idx s2) (idx s1)); [lia|discriminate Es]|]. exists w. destruct G as [G _]. unfold cur in HE. rewrite G in HE. cbn in HE. rewrite HE. reflexivity. }
    destruct prev as [[|]|] eqn:Ep.
    + specialize (Nx s1 (or_introl eq_refl) H). destruct r as [v|e]; [|apply (Fin []), Nx]. destruct Nx as [(_ & rr & M & R)|M].
      * apply (Fin ([44]%N ++ rr)). rewrite <- app_assoc. split; [exact M|]. right. eauto.
      * apply (Fin []). split; [exact M|left; reflexivity].
    + apply PV; [discriminate|exact H].
    + apply PV; [discriminate|exact H].
Qed.
Lemma IP_step n : VP n -> IP n -> IP (S n).
Proof.
  intros HV HI c tc st v st' H. cbn [inline_loop] in H. bix H. bix H. bix H. destruct (moved_blanks st) as (b & Hb & Mb). revert H Mb. generalize (adv_while is_spaces st). intros s1 H Mb.
  bi H c1 s2 Q1. assert (s2 = s1) as -> by (destruct (nonempty _); [apply add_elem_state in Q1; exact Q1|apply (f_equal snd) in Q1; symmetry; exact Q1]). clear Q1. bix H.
  destruct ((match tc with Some true => false | _ => true end) && (cur s1 =? chRCB)%N)%bool eqn:F0.
  { apply andb_true_iff in F0 as [Ht Ec]. apply N.eqb_eq in Ec. bi H u s2 Q. apply (f_equal snd) in H. cbn [snd ret] in H. subst s2. pose proof (incM_moved _ _ _ _ Q Ec ltac:(discriminate)) as M. exists b. split; [eapply moved_trans; eassumption|].
    destruct tc as [[|]|]; [discriminate|exact Hb|left; exact Hb]. }
  assert (Ht : tc <> Some false) by (intros ->; discriminate H).
  destruct (match tc with Some false => true | None => (cur s1 =? chCOMMA)%N | Some true => _ end); [discriminate|].
  bi H kv s2 Q. apply (kv_gram _ _ _ _ _ _ (VP_ok n HV)) in Q as (a & k & q & w & s3 & Ha & Hk & Hq & Hw & M1 & <-). bi H c2 s4 Q. apply add_elem_state in Q as ->.
  bix H. bix H. bix H. destruct (moved_blanks s2) as (z & Hz & Mz). revert H Mz. generalize (adv_while is_spaces s2). intros s3 H Mz.
  bi H c3 s4 Q1. assert (s4 = s3) as -> by (destruct (nonempty _); [apply add_elem_state in Q1; exact Q1|apply (f_equal snd) in Q1; symmetry; exact Q1]). clear Q1. bix H.
  assert (Bb : blanks (b ++ a)) by (apply Forall_app; auto).
  assert (M2 : moved ((b ++ a) ++ k ++ q ++ w ++ z) st s3).
  { rewrite <- !app_assoc. eapply moved_trans; [exact Mb|]. rewrite !app_assoc. eapply moved_trans; [|exact Mz]. rewrite <- !app_assoc. exact M1. }
  assert (Fin : forall t, pairs (negb s) t -> match tc with None => blanks t \/ pairs (negb s) t | Some true => pairs (negb s) t | Some false => blanks t end) by (intros t T; destruct tc as [[|]|]; [exact T|congruence|right; exact T]).
  destruct (N.eqb_spec (cur s3) chCOMMA) as [Ec|].
  - bi H u s4 Q. apply lossy_inv in Q as [_ ->]. bi H u2 s4 Q. apply inc_exn_moved in Q. rewrite Ec in Q. apply HI in H as (r & Mr & R). exists (((b ++ a) ++ k ++ q ++ w ++ z) ++ [44]%N ++ r). split.
    + rewrite <- !(app_assoc ((b ++ a) ++ k ++ q ++ w ++ z)). eapply moved_trans; [exact M2|]. rewrite <- app_assoc. exact (moved_trans _ _ _ _ _ Q Mr).
    + apply Fin, pr_more; assumption.
  - apply HI in H as (r & Mr & R). exists ((b ++ a) ++ k ++ q ++ w ++ (z ++ r)). split.
    + replace (((b ++ a) ++ k ++ q ++ w ++ z ++ r) ++ [125]%N) with (((b ++ a) ++ k ++ q ++ w ++ z) ++ (r ++ [125]%N)) by (rewrite <- !app_assoc; reflexivity). eapply moved_trans; eassumption.
    + apply Fin, pr_last; try assumption. apply Forall_app; auto.
Qed.
Lemma values_gram n : VP n /\ AP n /\ IP n.
Proof.
  induction n as [|n (V & A & I0)].
  - split; [|split].
    + intros st r st' H. injection H as <- <-. intros [].
    + intros el prev st r st' H. injection H as <- <-. intros [].
    + intros c tc st v st' H. discriminate.
  - split; [apply VP_step; assumption|]. split; [apply AP_step; assumption|apply IP_step; assumption].
Qed.
Lemma value_gram n st v st' : parse_value s n st = (Ok v, st') -> exists w, moved w st st' /\ value_text (negb s) w.
Proof. apply VP_ok, values_gram. Qed.

(** * Documents *)
Notation lines' := (lines (negb s)).
Notation document' := (document (negb s)).
Definition bolpos (st : pst) : Prop := (at_end st = true /\ document' (p_pre st)) \/ lines' (p_pre st).
Definition pos (st : pst) : Prop := (at_end st = true /\ document' (p_pre st)) \/ exists X a, p_pre st = X ++ a /\ lines' X /\ margin a /\ cur st = chLBR.
Lemma bol_end st : bolpos st -> at_end st = true -> pos st.
Proof. intros [[_ H]|H] E; left; (split; [exact E|]); [exact H|left; exact H]. Qed.
Lemma margin_rest a b w : margin a -> rest_of_line b w -> rest_of_line b (a ++ w).
Proof.
  intros Ha [m Hm|m k e Hm Hk He|m Hm|m k Hm Hk]; rewrite ?app_assoc; rewrite <- ?(app_assoc (a ++ m)).
  - apply rl_newline, Forall_app; auto.
  - apply rl_comment; [apply Forall_app| |]; auto.
  - apply rl_end, Forall_app; auto.
  - apply rl_comment_end; [apply Forall_app|]; auto.
Qed.
(** The line [a ++ w] behind [X]. *)
Lemma bol_line X w st : p_pre st = X ++ w -> lines' X -> (line (negb s) false w /\ at_end st = true) \/ line (negb s) true w -> bolpos st.
Proof.
  intros E HX [[H K]|H].
  - left. split; [exact K|]. right. exists X, w. auto.
  - right. rewrite E. apply ls_snoc; assumption.
Qed.
Lemma closing st r st' : parse_comment_trail true st = (Ok r, st') -> exists w, moved w st st' /\ forall f, (forall b, rest_of_line b w -> line (negb s) b (f w)) -> (line (negb s) false (f w) /\ at_end st' = true) \/ line (negb s) true (f w).
Proof. intros H. apply line_gram in H as (w & M & [[H E]|H]); exists w; (split; [exact M|]); intros f F; [left; split; [apply F, H|exact E]|right; apply F, H]. Qed.
Lemma item_gram n st r st' : bolpos st -> at_end st = false -> parse_item s n st = (Ok r, st') -> match r with Some _ => bolpos st' | None => pos st' end.
Proof.
  intros [[K _]|HX] Ee H; [congruence|]. unfold parse_item in H. destruct (restore_on_err item_head st) as [[h|e] s1] eqn:Q; [|discriminate].
  assert (Q' : item_head st = (Ok h, s1)). { unfold restore_on_err in Q. destruct (item_head st) as [[h0|e0] s0]; [exact Q|discriminate]. } clear Q.
  destruct h as [i| |].
  - injection H as <- <-. unfold item_head in Q'. bix Q'. bix Q'. bix Q'. bix Q'. bix Q'. set (s0 := adv_while is_blank (set_mark st)) in *.
    pose proof (adv_moved is_blank (set_mark st)) as M0. fold s0 in M0. cbn [set_mark p_rest] in M0. assert (Hm : margin (take_while is_blank (p_rest st))) by (apply taken; chp).
    revert M0 Hm. generalize (take_while is_blank (p_rest st)). intros a M0 Hm. clearbody s0. destruct (at_end s0 && _)%bool eqn:E0.
    { apply andb_true_iff in E0 as [E0 _]. apply (f_equal snd) in Q'. cbn [snd ret] in Q'. subst s1. apply (bol_line (p_pre st) a); [apply M0|exact HX|]. left. split; [apply ln_rest, rl_end, Hm|exact E0]. }
    destruct (N.eqb_spec (cur s0) chLF) as [Ec|_].
    { bi Q' u s2 Q. pose proof (incM_moved _ _ _ _ Q Ec ltac:(discriminate)) as M1. bix Q'. apply (f_equal snd) in Q'. cbn [snd ret] in Q'. subst s2. pose proof (moved_trans _ _ _ _ _ M0 M1) as M2.
      apply (bol_line (p_pre st) (a ++ [chLF])); [apply M2|exact HX|]. right. apply ln_rest, rl_newline, Hm. }
    destruct (N.eqb_spec (cur s0) chHASH) as [Ec|_]; [|destruct (cur s0 =? chLBR)%N; discriminate].
    bi Q' ctr0 s2 Q. destruct ctr0 as [[cws cm] tr]. apply (f_equal snd) in Q'. cbn [snd ret] in Q'. subst s2. apply closing in Q as (w & M1 & C). pose proof (moved_trans _ _ _ _ _ M0 M1) as M2.
    apply (bol_line (p_pre st) (a ++ w)); [apply M2|exact HX|]. apply (C (fun w => a ++ w)). intros b B. apply ln_rest, margin_rest; assumption.
  - injection H as <- <-. right. exists (p_pre st). unfold item_head in Q'. bix Q'. bix Q'. bix Q'. bix Q'. bix Q'. set (s0 := adv_while is_blank (set_mark st)) in *.
    pose proof (adv_moved is_blank (set_mark st)) as M0. fold s0 in M0. cbn [set_mark p_rest] in M0. assert (Hm : margin (take_while is_blank (p_rest st))) by (apply taken; chp).
    destruct (at_end s0 && _)%bool; [discriminate|]. destruct (cur s0 =? chLF)%N; [bi Q' u s2 Q; bix Q'; discriminate|]. destruct (cur s0 =? chHASH)%N; [bi Q' ctr0 s2 Q; destruct ctr0 as [[? ?] ?]; discriminate|].
    destruct (N.eqb_spec (cur s0) chLBR) as [Ec|]; [|discriminate]. apply (f_equal snd) in Q'. cbn [snd ret] in Q'. subst s1. exists (take_while is_blank (p_rest st)). split; [apply M0|]. auto.
  - bi H kv s2 Q. apply (f_equal snd) in H as H'. cbn [snd ret] in H'. subst s2. injection H as <-. unfold parse_key_value in Q.
    apply (kv_gram _ _ _ _ _ _ (value_gram n)) in Q as (a & k & q & v & s2 & Ha & Hk & Hq & Hv & M & ctr0 & Q). apply closing in Q as (w & M1 & C). pose proof (moved_trans _ _ _ _ _ M M1) as M2. rewrite <- !app_assoc in M2.
    apply (bol_line (p_pre st) (a ++ k ++ q ++ v ++ w)); [apply M2|exact HX|]. apply (C (fun w => a ++ k ++ q ++ v ++ w)). intros b B. apply ln_pair; assumption.
Qed.
Definition PTp n := forall p t k st r st', pos st -> parse_table s n p t k st = (Ok r, st') -> pos st'.
Definition TLp n := forall f k c st r st', bolpos st -> table_loop s n f k c st = (Ok r, st') -> pos st'.
Definition SBp n := forall f k c st r st', pos st -> siblings s n f k c st = (Ok r, st') -> pos st'.
Definition AOp n := forall x m k st r st', pos st -> parse_aot s n x m k st = (Ok r, st') -> pos st'.
Definition ALp n := forall x m k st r st', pos st -> aot_loop s n x m k st = (Ok r, st') -> pos st'.
Lemma append_state c k it st r st' : table_append_m s c k it st = (Ok r, st') -> st' = st.
Proof. intros H. apply lift_inv in H. apply H. Qed.
Lemma AOp_step n : ALp n -> AOp (S n).
Proof. intros HA x m k st r st' P H. cbn [parse_aot] in H. bi H l s1 Q. apply (f_equal snd) in H. cbn [snd ret] in H. subst s1. eapply HA; eassumption. Qed.
Lemma ALp_step n : PTp n -> ALp n -> ALp (S n).
Proof.
  intros HP HA x m k st r st' P H. cbn [aot_loop] in H. bix H. destruct (at_end st); [apply (f_equal snd) in H; cbn [snd ret] in H; subst st'; exact P|].
  bi H pk s1 Q. apply peek_state in Q as ->. destruct (_ && _)%bool; [|apply (f_equal snd) in H; cbn [snd ret] in H; subst st'; exact P]. bi H kt s2 Q. apply (HP _ _ _ _ _ _ P) in Q.
  destruct (snd kt); try discriminate. eapply HA; eassumption.
Qed.
Lemma SBp_step n : PTp n -> SBp n -> SBp (S n).
Proof.
  intros HP HA f k c st r st' P H. cbn [siblings] in H. bix H. destruct (at_end st); [apply (f_equal snd) in H; cbn [snd ret] in H; subst st'; exact P|].
  bi H pk s1 Q. apply peek_state in Q as ->. destruct (is_child _ _); [|apply (f_equal snd) in H; cbn [snd ret] in H; subst st'; exact P]. bi H kt s2 Q. apply (HP _ _ _ _ _ _ P) in Q.
  bi H c' s3 Q2. apply append_state in Q2 as ->. eapply HA; eassumption.
Qed.
Lemma TLp_step n : PTp n -> SBp n -> TLp n -> TLp (S n).
Proof.
  intros HP HS HT f k c st r st' P H. cbn [table_loop] in H. bix H. destruct (at_end st) eqn:Ee; [apply (f_equal snd) in H; cbn [snd ret] in H; subst st'; apply bol_end; assumption|].
  bi H it s1 Q. apply (item_gram _ _ _ _ P Ee) in Q. destruct it as [[k0 i]|].
  - bix H. destruct (merge_ws i c s1); [eapply HT; eassumption|]. bi H c' s2 Q2. apply append_state in Q2 as ->. eapply HT; eassumption.
  - bix H. destruct (cur s1 =? chLBR)%N; [|discriminate]. bi H pk s2 Q2. apply peek_state in Q2 as ->. destruct (is_child _ _); [|apply (f_equal snd) in H; cbn [snd ret] in H; subst st'; exact Q].
    bi H kt s2 Q2. apply (HP _ _ _ _ _ _ Q) in Q2. bi H c' s3 Q3. apply append_state in Q3 as ->. eapply HS; eassumption.
Qed.
Lemma one_more st b st' : incM st = (Ok b, st') -> exists x, moved x st st' /\ List.length x <= 1 /\ (cur st = chRBR -> x = [93]%N).
Proof.
  intros H. apply incM_inv in H as [[E ->]|(c & r & E & ->)].
  - exists []. split; [apply moved_nil|]. split; [cbn; lia|]. unfold cur. rewrite E. discriminate.
  - exists [c]. split; [split; [exact E|reflexivity]|]. split; [cbn; lia|]. unfold cur. rewrite E. intros ->. reflexivity.
Qed.
Lemma PTp_step n : TLp n -> AOp n -> PTp (S n).
Proof.
  intros HT HA p t k st r st' P H. cbn [parse_table] in H. bix H. destruct (N.eqb_spec (cur st) chLBR) as [Ec|]; [|discriminate]. cbn [negb] in H. bix H. bi H b0 s1 Q1. pose proof (incM_moved _ _ _ _ Q1 Ec ltac:(discriminate)) as M1. clear Q1.
  destruct P as [[K _]|(X & a & EX & HX & Hm & _)]; [unfold at_end, cur in *; destruct (p_rest st); discriminate|].
  bix H. destruct (at_end s1); [discriminate|]. bix H. bi H ia s2 Q2. 
  assert (M2 : moved (if ia then [91]%N else []) s1 s2).
  { destruct (N.eqb_spec (cur s1) chLBR) as [E|].
    - bi Q2 b1 s3 Q3. pose proof (incM_moved _ _ _ _ Q3 E ltac:(discriminate)) as M. destruct b1; [|discriminate]. injection Q2 as <- <-. exact M.
    - injection Q2 as <- <-. apply moved_nil. }
  clear Q2. bi H ky s3 Q3. apply table_key_inv, key_gram in Q3 as (kt & M3 & Hk). bix H. bix H. destruct (at_end s3); [discriminate|]. destruct (N.eqb_spec (cur s3) chRBR) as [Er|]; [|discriminate]. cbn [negb] in H. cbv zeta in H.
  destruct (existsb _ (key_parts (key_set_sep [] ky))); [discriminate|]. bi H b4 s4 Q4. pose proof (incM_moved _ _ _ _ Q4 Er ltac:(discriminate)) as M4. clear Q4. bix H. bi H u s5 Q5. apply lossy_inv in Q5 as [L1 ->].
  bi H b5 s5 Q5. assert (M5 : exists x, moved x s4 s5 /\ if ia then x = [93]%N \/ (negb s = true /\ List.length x <= 1) else x = []).
  { destruct ia; [|apply (f_equal snd) in Q5; cbn [snd ret] in Q5; subst s5; exists []; split; [apply moved_nil|reflexivity]]. apply one_more in Q5 as (x & Mx & Lx & Cx). exists x. split; [exact Mx|].
    destruct (N.eqb_spec (cur s4) chRBR) as [E|E]; [left; apply Cx, E|]. right. split; [|exact Lx]. destruct s; [discriminate L1|reflexivity]. }
  clear Q5. destruct M5 as (x & M5 & Hx). bi H ctr0 s6 Q6. destruct ctr0 as [[cws cm] tr]. apply closing in Q6 as (w & M6 & C).
  assert (B : bolpos s6).
  { assert (MM : moved ([91] ++ (if ia then [91] else []) ++ kt ++ [93] ++ x ++ w)%N st s6).
    { eapply moved_trans; [exact M1|]. eapply moved_trans; [exact M2|]. eapply moved_trans; [exact M3|]. eapply moved_trans; [exact M4|]. eapply moved_trans; [exact M5|exact M6]. }
    apply (bol_line X (a ++ [91] ++ (if ia then [91] else []) ++ kt ++ [93] ++ x ++ w)%N); [rewrite app_assoc, <- EX; apply MM|exact HX|].
    apply (C (fun w => a ++ [91] ++ (if ia then [91] else []) ++ kt ++ [93] ++ x ++ w)%N). intros b B. destruct ia.
    - apply (ln_aot (negb s) b a kt x w); assumption.
    - subst x. apply (ln_table (negb s) b a kt w); assumption. }
  clear M1 M2 M3 M4 M5 M6 C. bi H u2 s7 Q7. apply lossy_inv in Q7 as [_ ->]. bi H u3 s7 Q7. apply lossy_inv in Q7 as [_ ->]. bi H c s7 Q7. apply (HT _ _ _ _ _ _ B) in Q7. bi H u4 s8 Q8. apply lift_inv in Q8 as [_ ->]. bi H u5 s8 Q8. apply lossy_inv in Q8 as [_ ->].
  destruct (skipn _ _) as [|p0 [|p1 rest]]; [| |apply (f_equal snd) in H; cbn [snd ret] in H; subst st'; exact Q7].
  - cbv zeta in H. destruct (ia && _)%bool; [|apply (f_equal snd) in H; cbn [snd ret] in H; subst st'; exact Q7]. bi H ao s8 Q8. apply (HA _ _ _ _ _ _ Q7) in Q8. apply (f_equal snd) in H; cbn [snd ret] in H; subst st'; exact Q8.
  - cbv zeta in H. destruct (ia && _)%bool; [|apply (f_equal snd) in H; cbn [snd ret] in H; subst st'; exact Q7]. bi H ao s8 Q8. apply (HA _ _ _ _ _ _ Q7) in Q8. apply (f_equal snd) in H; cbn [snd ret] in H; subst st'; exact Q8.
Qed.
Lemma tables_gram n : PTp n /\ TLp n /\ SBp n /\ AOp n /\ ALp n.
Proof.
  induction n as [|n (P & T & B & O & L)]; [repeat split; intros ? *; discriminate|].
  split; [apply PTp_step; assumption|]. split; [apply TLp_step; assumption|]. split; [apply SBp_step; assumption|]. split; [apply AOp_step; assumption|apply ALp_step; assumption].
Qed.
Lemma body_gram n : forall c st r st', bolpos st -> body_loop s n c st = (Ok r, st') -> pos st'.
Proof.
  induction n as [|n IH]; intros c st r st' P H; cbn [body_loop] in H; [discriminate|]. bix H. bix H. destruct (at_end st) eqn:Ee; cbn [orb] in H; [apply (f_equal snd) in H; cbn [snd ret] in H; subst st'; apply bol_end; assumption|].
  destruct (N.eqb_spec (cur st) chLBR) as [Ec|].
  { apply (f_equal snd) in H; cbn [snd ret] in H; subst st'. destruct P as [[K _]|P]; [congruence|]. right. exists (p_pre st), []. rewrite app_nil_r. split; [reflexivity|]. split; [exact P|]. split; [constructor|exact Ec]. }
  bi H it s1 Q. apply (item_gram _ _ _ _ P Ee) in Q. destruct it as [[k i]|]; [|apply (f_equal snd) in H; cbn [snd ret] in H; subst st'; exact Q]. bix H.
  match type of H with match ?x with _ => _ end s1 = _ => destruct x end.
  - bix H. eapply IH; [|exact H]. exact Q.
  - bi H c' s2 Q2. apply wrap_inv in Q2 as [_ ->]. bix H. eapply IH; [|exact H]. exact Q.
Qed.
Lemma loop_gram n : forall c st r st', pos st -> tables_loop s n c st = (Ok r, st') -> at_end st' = true /\ document' (p_pre st').
Proof.
  induction n as [|n IH]; intros c st r st' P H; cbn [tables_loop] in H; [discriminate|]. bix H. destruct (at_end st) eqn:Ee.
  { apply (f_equal snd) in H; cbn [snd ret] in H; subst st'. destruct P as [P|(X & a & _ & _ & _ & E)]; [exact P|]. unfold at_end, cur in *. destruct (p_rest st); discriminate. }
  bi H kt s1 Q. destruct (tables_gram n) as (PT & _ & _ & AO & _). apply (PT _ _ _ _ _ _ P) in Q. bi H v s2 Q2.
  assert (P2 : pos s2).
  { destruct (snd kt); try (apply (f_equal snd) in Q2; cbn [snd ret] in Q2; subst s2; exact Q). destruct (tm_aot _); [eapply AO; eassumption|apply (f_equal snd) in Q2; cbn [snd ret] in Q2; subst s2; exact Q]. }
  bi H c' s3 Q3. apply wrap_inv in Q3 as [_ ->]. eapply IH; eassumption.
Qed.
Theorem parse_document x d : parse_gen s x = Ok d -> document' x.
Proof.
  unfold parse_gen, parse_doc. intros H. destruct (bind _ _ (start x)) as [[d0|e] st'] eqn:E; [|discriminate]. clear H. bi E c s1 Q1. bi E c2 s2 Q2. apply (f_equal snd) in E. cbn [snd ret] in E. subst s2.
  pose proof (good_body (parse_fuel x) s (empty_cont true) (start x)) as G1. rewrite Q1 in G1. destruct G1 as [w1 G1].
  pose proof (good_tables_loop (parse_fuel x) s c s1) as G2. rewrite Q2 in G2. destruct G2 as [w2 G2].
  apply body_gram in Q1; [|right; constructor]. apply (loop_gram _ _ _ _ _ Q1) in Q2 as [E D]. pose proof (moved_trans _ _ _ _ _ G1 G2) as [M1 M2]. cbn in M1, M2. unfold at_end in E. destruct (p_rest st'); [|discriminate].
  rewrite app_nil_r in M1. rewrite M2, <- M1 in D. exact D.
Qed.
End Values.

(** Without an opening brace and without two brackets side by side nothing lax
    is left. *)
Lemma in_mid (x : char) a b c : ~ In x (a ++ b ++ c) -> ~ In x a /\ ~ In x b /\ ~ In x c.
Proof. rewrite !in_app_iff. tauto. Qed.
Lemma values_strict : (forall w, value_text true w -> ~ In 123%N w -> value_text false w) /\
  (forall b w, elems true b w -> ~ In 123%N w -> elems false b w) /\ (forall w, pairs true w -> ~ In 123%N w -> pairs false w).
Proof.
  apply (values_mut true (fun w _ => ~ In 123%N w -> value_text false w) (fun b w _ => ~ In 123%N w -> elems false b w) (fun w _ => ~ In 123%N w -> pairs false w)); intros.
  - eapply vt_string; eassumption.
  - constructor.
  - constructor.
  - apply vt_word; assumption.
  - apply vt_date; assumption.
  - apply vt_datetime; assumption.
  - apply in_mid in H0 as (_ & K & _). apply vt_array; auto.
  - apply vt_empty; assumption.
  - exfalso. apply H0. left. reflexivity.
  - apply el_end; assumption.
  - apply in_mid in H1 as (_ & K1 & K2). apply el_value; auto.
  - apply in_mid in H0 as (_ & _ & K2). apply el_comma; auto.
  - exfalso. apply H. rewrite in_app_iff. right. left. reflexivity.
  - rewrite !in_app_iff in H0. apply pr_last; try assumption. apply H. tauto.
  - rewrite !in_app_iff in H1. apply pr_more; try assumption; [apply H|apply H0]; cbn [In] in H1; tauto.
Qed.
Lemma line_strict b w : line true b w -> ~ In 123%N w -> (forall x y, w <> x ++ [91; 91]%N ++ y) -> line false b w.
Proof.
  intros [c t R|c a k q v t A K Q V R|c a k t A K R|c a k x t A K X R] Hb Hk.
  - apply ln_rest, R.
  - apply ln_pair; try assumption. apply values_strict; [exact V|]. rewrite !in_app_iff in Hb. tauto.
  - apply ln_table; assumption.
  - exfalso. apply (Hk a (k ++ [93]%N ++ x ++ t)). reflexivity.
Qed.
Lemma lines_strict w : lines true w -> ~ In 123%N w -> (forall x y, w <> x ++ [91; 91]%N ++ y) -> lines false w.
Proof.
  induction 1 as [|w l Hw IH Hl]; intros Hb Hk; [constructor|]. rewrite in_app_iff in Hb. apply ls_snoc.
  - apply IH; [tauto|]. intros x y ->. apply (Hk x (y ++ l)). rewrite <- !app_assoc. reflexivity.
  - apply line_strict; [exact Hl|tauto|]. intros x y ->. apply (Hk (w ++ x) y). rewrite <- !app_assoc. reflexivity.
Qed.
Lemma document_strict w : document true w -> ~ In 123%N w -> (forall x y, w <> x ++ [91; 91]%N ++ y) -> document false w.
Proof.
  intros [H|(a & l & -> & H & Hl)] Hb Hk; [left; apply lines_strict; assumption|]. right. exists a, l. split; [reflexivity|]. rewrite in_app_iff in Hb. split.
  - apply lines_strict; [exact H|tauto|]. intros x y ->. apply (Hk x (y ++ l)). rewrite <- !app_assoc. reflexivity.
  - apply line_strict; [exact Hl|tauto|]. intros x y ->. apply (Hk (a ++ x) y). rewrite <- !app_assoc. reflexivity.
Qed.
Lemma value_of_text x v : value_of x = Ok v -> value_text true x.
Proof.
  unfold value_of. intros H. destruct (bind _ _ (start x)) as [[v0|e] st'] eqn:E; [|discriminate]. clear H. bi E v1 s1 Q. bix E. bix E. destruct (at_end s1) eqn:Ee; [|discriminate].
  apply value_gram in Q as (w & [M _] & W). unfold at_end in Ee. destruct (p_rest s1); [|discriminate]. cbn in M. rewrite app_nil_r in M. subst w. exact W.
Qed.
