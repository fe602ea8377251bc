(** WordChars: which characters an accepted number, date or time may contain
    (C37).  Not imported, only required: its names shadow those of Control.v. *)
From Verif Require Import Base Source Utils Items Container Arrays Parser Lemmas Numbers Reader Errors Grammar.
From Coq Require Import ZifyBool ZifyNat ZifyN.
Open Scope nat_scope.
Definition hard (c : char) : bool :=
  (c <=? 8)%N || ((14 <=? c)%N && (c <=? 27)%N) || ((33 <=? c)%N && (c <=? 42)%N) || (c =? 44)%N || (c =? 47)%N || ((59 <=? c)%N && (c <=? 64)%N)
  || ((91 <=? c)%N && (c <=? 94)%N) || (c =? 96)%N || (c =? 123)%N || (c =? 125)%N || (c =? 126)%N || (c =? 127)%N.
Definition soft (c : char) : Prop := hard c = false.
Ltac chr := intros; unfold soft, hard, is_blank, is_ws, is_spaces, bad_comment_char, bad_string_char, is_nl, is_kv_sep, is_bare_key_char, is_ascii_letter, is_ascii_digit, is_date_stop,
  is_val_delim, is_quote, chSP, chTAB, chCR, chLF, chHASH, chDQ, chSQ, chEQ, chDOT, chMINUS, chPLUS, chUND, chLBR, chRBR, chLCB, chRCB, chCOMMA, chCOLON, chBSL, chNUL in *; lia.
Lemma drop_split p w : exists a, w = a ++ drop_while p w /\ Forall (fun c => p c = true) a.
Proof. exists (take_while p w). split; [symmetry; apply take_drop|apply take_while_all]. Qed.
Lemma rstrip_split p w : exists b, w = rstrip_p p w ++ b /\ Forall (fun c => p c = true) b.
Proof.
  unfold rstrip_p. destruct (drop_split p (rev w)) as (a & E & F). exists (rev a). split.
  - rewrite <- (rev_involutive w) at 1. rewrite E at 1. rewrite rev_app_distr. reflexivity.
  - apply Forall_rev, F.
Qed.
Lemma strip_split p w : exists a b, w = a ++ rstrip_p p (lstrip_p p w) ++ b /\ Forall (fun c => p c = true) a /\ Forall (fun c => p c = true) b.
Proof.
  destruct (drop_split p w) as (a & E & F). destruct (rstrip_split p (drop_while p w)) as (b & E2 & F2).
  exists a, b. split; [|split; assumption]. unfold lstrip_p. rewrite <- E2. exact E.
Qed.
(** What a hard character becomes before Python reads a number. *)
Definition odd (c : char) : bool := hard c || (c =? 63)%N.
Notation even_ := (fun c => odd c = false).
Lemma to_ascii_odd c : hard c = true -> odd (to_ascii c) = true.
Proof.
  intros H. unfold to_ascii, odd. destruct (N.ltb_spec c 127); [rewrite H; reflexivity|].
  assert (c = 127)%N by (unfold hard in H; lia). subst. reflexivity.
Qed.
Lemma odd_map w : Forall even_ (map to_ascii w) -> Forall soft w.
Proof.
  intros H. apply Forall_forall. intros c Hc. unfold soft. apply not_true_is_false. intros X.
  rewrite Forall_forall in H. specialize (H (to_ascii c) (in_map _ _ _ Hc)). cbn in H. rewrite to_ascii_odd in H; [discriminate|exact X].
Qed.
Lemma digit_even b c d : digit_in b c = Some d -> odd c = false.
Proof.
  unfold digit_in, digit_val, odd, hard. intros H. 
  repeat match type of H with context[if ?x then _ else _] => destruct x eqn:? end; try discriminate; lia.
Qed.
Lemma int_digits_even b w : forall a l n, int_digits b w a l = Some n -> Forall even_ w.
Proof.
  induction w as [|c w IH]; intros a l n H; cbn [int_digits] in H; constructor.
  - destruct (N.eqb_spec c chUND) as [->|]; [reflexivity|]. destruct (digit_in b c) eqn:E; [|discriminate]. eapply digit_even; eauto.
  - destruct (c =? chUND)%N; [destruct l; [|discriminate]|destruct (digit_in b c); [|discriminate]]; eapply IH; eauto.
Qed.
Lemma int_unsigned_even b w n : int_unsigned b w = Some n -> Forall even_ w.
Proof.
  unfold int_unsigned. destruct w as [|z [|p r]]; try apply int_digits_even. destruct (_ && _) eqn:E; [|apply int_digits_even].
  intros H. constructor; [|constructor].
  - unfold odd, hard. clear H. lia.
  - unfold odd, hard. clear H. lia.
  - destruct r as [|u r]; [constructor|]. destruct (N.eqb_spec u chUND) as [->|].
    + apply int_digits_even in H. constructor; [reflexivity|exact H].
    + eapply int_digits_even; eauto.
Qed.
Lemma space_even w : Forall (fun c => c_isspace c = true) w -> Forall even_ w.
Proof. apply Forall_impl. intros c. unfold c_isspace, odd, hard. lia. Qed.
Lemma py_int_soft w b z : py_int w b = Some z -> Forall soft w.
Proof.
  unfold py_int. intros H. apply odd_map. destruct (strip_split c_isspace (map to_ascii w)) as (a & e & E & Fa & Fe).
  rewrite E. set (m := rstrip_p _ _) in *. clearbody m. clear E.
  apply Forall_app. split; [apply space_even, Fa|]. apply Forall_app. split; [|apply space_even, Fe].
  destruct m as [|c r]; [constructor|].
  destruct (N.eqb_spec c chMINUS) as [->|]; [constructor; [reflexivity|]; destruct (int_unsigned b r) eqn:E; [eapply int_unsigned_even; eauto|discriminate]|].
  destruct (N.eqb_spec c chPLUS) as [->|]; [constructor; [reflexivity|]; destruct (int_unsigned b r) eqn:E; [eapply int_unsigned_even; eauto|discriminate]|].
  destruct (int_unsigned b (c :: r)) eqn:E; [eapply int_unsigned_even; eauto|discriminate].
Qed.
Lemma dig_even c : is_ascii_digit c = true -> odd c = false.
Proof. unfold is_ascii_digit, odd, hard. lia. Qed.
Lemma digs_even w : Forall (fun c => is_ascii_digit c = true) w -> Forall even_ w.
Proof. apply Forall_impl. apply dig_even. Qed.
Lemma alldig w : all_digits w = true -> Forall (fun c => is_ascii_digit c = true) w.
Proof. unfold all_digits. intros H. apply Forall_forall. apply forallb_forall. exact H. Qed.
Lemma lower_even w : Forall even_ (lower w) -> Forall even_ w.
Proof.
  unfold lower. intros H. apply Forall_forall. intros c Hc. rewrite Forall_forall in H. specialize (H _ (in_map _ _ _ Hc)). cbn in H.
  unfold lower_c in H. destruct (_ && _) eqn:E; [|exact H]. unfold odd, hard. lia.
Qed.
Lemma float_unsigned_even w f : float_unsigned w = Some f -> Forall even_ w.
Proof.
  unfold float_unsigned. destruct (str_eqb (lower w) (L "inf") || str_eqb (lower w) (L "infinity"))%bool eqn:E1.
  { intros _. apply lower_even. apply orb_true_iff in E1 as [E1|E1]; apply str_eqb_eq in E1; rewrite E1; repeat constructor. }
  destruct (str_eqb (lower w) (L "nan")) eqn:E2.
  { intros _. apply lower_even. apply str_eqb_eq in E2; rewrite E2; repeat constructor. }
  clear E1 E2. intros H. destruct (drop_split is_ascii_digit w) as (ip & E & F).
  rewrite E. apply Forall_app. split; [apply digs_even, F|]. clear E F.
  set (r1 := drop_while is_ascii_digit w) in *. clearbody r1. set (q := take_while is_ascii_digit w) in *. clearbody q. clear w.
  assert (G : forall r2, match r2 with
      | [] => True
      | c :: r => (if ((c =? 101) || (c =? 69))%N then
            let '(eneg, ed) := match r with
                               | d :: r' => if (d =? chMINUS)%N then (true, r')
                                            else if (d =? chPLUS)%N then (false, r') else (false, r)
                               | [] => (false, [])
                               end in
            match ed with [] => False | _ => all_digits ed = true end else False) end -> Forall even_ r2).
  { intros [|c r] K; [constructor|]. destruct ((c =? 101) || (c =? 69))%N%bool eqn:Ec; [|contradiction].
    constructor; [unfold odd, hard; clear K; lia|].
    destruct r as [|d r]; [contradiction|]. destruct (N.eqb_spec d chMINUS) as [->|].
    - destruct r; [contradiction|]. constructor; [reflexivity|]. apply digs_even, alldig, K.
    - destruct (N.eqb_spec d chPLUS) as [->|].
      + destruct r; [contradiction|]. constructor; [reflexivity|]. apply digs_even, alldig, K.
      + apply digs_even, alldig, K. }
  assert (K : forall (fp : str) r2, (if (List.length q + List.length fp =? 0)%nat then None
      else match r2 with
      | [] => Some (fun n => FDec n (dec_value (q ++ fp)) (- Z.of_nat (List.length fp))%Z)
      | c :: r =>
          if ((c =? 101) || (c =? 69))%N then
            let '(eneg, ed) := match r with
                               | d :: r' => if (d =? chMINUS)%N then (true, r')
                                            else if (d =? chPLUS)%N then (false, r') else (false, r)
                               | [] => (false, [])
                               end in
            match ed with
            | [] => None
            | _ => if all_digits ed
                   then Some (fun n => FDec n (dec_value (q ++ fp)) (- Z.of_nat (List.length fp) + (if (eneg : bool) then - Z.of_N (dec_value ed) else Z.of_N (dec_value ed)))%Z)
                   else None
            end
          else None
      end) = Some f -> Forall even_ r2).
  { clear H. intros fp r2 H. apply G. destruct (_ =? 0)%nat; [discriminate|]. destruct r2 as [|c r]; [exact I|].
    destruct ((c =? 101) || (c =? 69))%N%bool; [|discriminate].
    destruct (match r with [] => _ | _ => _ end) as [eneg ed]. destruct ed as [|x ed]; [discriminate|].
    destruct (all_digits (x :: ed)); [reflexivity|discriminate]. }
  destruct r1 as [|c r]; [constructor|]. destruct (N.eqb_spec c chDOT) as [->|].
  - constructor; [reflexivity|]. destruct (drop_split is_ascii_digit r) as (fp & E & F).
    rewrite E. apply Forall_app. split; [apply digs_even, F|]. eapply K. exact H.
  - eapply K. exact H.
Qed.
Lemma py_float_soft w f : py_float w = Some f -> Forall soft w.
Proof.
  unfold py_float. intros H. apply odd_map. destruct (strip_split c_isspace (map to_ascii w)) as (a & e & E & Fa & Fe).
  rewrite E. set (m := rstrip_p _ _) in *. clearbody m. clear E.
  apply Forall_app. split; [apply space_even, Fa|]. apply Forall_app. split; [|apply space_even, Fe].
  destruct m as [|c r]; [constructor|].
  destruct (N.eqb_spec c chMINUS) as [->|]; [constructor; [reflexivity|]; destruct (float_unsigned r) eqn:E; [eapply float_unsigned_even; eauto|discriminate]|].
  destruct (N.eqb_spec c chPLUS) as [->|]; [constructor; [reflexivity|]; destruct (float_unsigned r) eqn:E; [eapply float_unsigned_even; eauto|discriminate]|].
  destruct (float_unsigned (c :: r)) eqn:E; [eapply float_unsigned_even; eauto|discriminate].
Qed.
Lemma lower_soft w : Forall soft (lower w) -> Forall soft w.
Proof.
  unfold lower. intros H. apply Forall_forall. intros c Hc. rewrite Forall_forall in H. specialize (H _ (in_map _ _ _ Hc)).
  unfold lower_c, soft, hard in *. destruct (_ && _) eqn:E in H; lia.
Qed.
Lemma drop_us_soft b w : forall p, Forall soft (drop_underscores b p w) -> Forall soft w.
Proof.
  induction w as [|c w IH]; intros p H; cbn [drop_underscores] in H; [constructor|].
  destruct (_ && _) eqn:E.
  - apply andb_true_iff in E as [E _]. apply andb_true_iff in E as [E _]. apply N.eqb_eq in E. subst. constructor; [reflexivity|eauto].
  - inversion H; subst. constructor; eauto.
Qed.
Lemma parse_number_soft raw v : parse_number raw = Some v -> Forall soft raw.
Proof.
  unfold parse_number. intros H.
  assert (X : exists sign r, raw = sign ++ r /\ match raw with
                      | c :: r => if ((c =? chPLUS) || (c =? chMINUS))%N%bool then ([c], r) else ([], raw)
                      | [] => ([], [])
                      end = (sign, r)).
  { destruct raw as [|c r]; [exists [], []; auto|]. destruct (_ || _); [exists [c], r|exists [], (c :: r)]; auto. }
  destruct X as (sign & r & -> & X). rewrite X in H. clear X.
  repeat match type of H with (if ?x then _ else _) = _ => destruct x; [discriminate|] end.
  set (clean0 := lower _) in *.
  assert (Y : Forall soft (sign ++ clean0)).
  { match type of H with match ?x with _ => _ end = _ => destruct x eqn:E1 end; [eapply py_int_soft; eauto|].
    match type of H with match ?x with _ => _ end = _ => destruct x eqn:E2 end; [eapply py_float_soft; eauto|discriminate]. }
  apply Forall_app in Y as [Y1 Y2]. apply Forall_app. split; [exact Y1|]. eapply drop_us_soft, lower_soft. exact Y2.
Qed.

(** ** Dates *)
Lemma re_end_soft w : re_end w = true -> Forall soft w.
Proof. destruct w as [|c [|]]; cbn; try discriminate; [constructor|]. intros H. apply N.eqb_eq in H. subst. repeat constructor. Qed.
Lemma digs_soft w : Forall (fun c => is_ascii_digit c = true) w -> Forall soft w.
Proof. apply Forall_impl. intros c. chr. Qed.
Lemma lit_soft k w r : lit k w = Some r -> soft k -> Forall soft r -> Forall soft w.
Proof. destruct w as [|c w]; [discriminate|]. cbn. destruct (N.eqb_spec c k) as [->|]; [|discriminate]. intros H; inversion H; subst. constructor; auto. Qed.
Definition okdig (ok : char -> char -> bool) : Prop := forall a b, ok a b = true -> soft a /\ soft b.
Lemma two_soft ok w n r : okdig ok -> two ok w = Some (n, r) -> Forall soft r -> Forall soft w.
Proof.
  intros K. destruct w as [|a [|b w]]; try discriminate. cbn. destruct (ok a b) eqn:E; [|discriminate]. intros H; inversion H; subst.
  apply K in E as [? ?]. intros. constructor; auto.
Qed.
Lemma ok_month : okdig re_month. Proof. intros a b. unfold re_month, between. chr. Qed.
Lemma ok_day : okdig re_day. Proof. intros a b. unfold re_day, between. chr. Qed.
Lemma ok_hour : okdig re_hour. Proof. intros a b. unfold re_hour, between. chr. Qed.
Lemma ok_min : okdig re_min. Proof. intros a b. unfold re_min, between. chr. Qed.
Lemma ok_sec : okdig re_sec. Proof. intros a b. unfold re_sec, re_min, between. chr. Qed.
Lemma m_date_soft w d r : m_date re_month re_day w = Some (d, r) -> Forall soft r -> Forall soft w.
Proof.
  unfold m_date. intros H Hr. destruct (drop_split is_ascii_digit w) as (y & E & F). rewrite E. apply Forall_app. split; [apply digs_soft, F|].
  clear E F y. destruct (take_while is_ascii_digit w); [discriminate|].
  destruct (lit chMINUS (drop_while is_ascii_digit w)) as [r1|] eqn:E1; [|discriminate].
  destruct (two re_month r1) as [[mo r2]|] eqn:E2; [|discriminate].
  destruct (lit chMINUS r2) as [r3|] eqn:E3; [|discriminate].
  destruct (two re_day r3) as [[da r4]|] eqn:E4; [|discriminate]. inversion H; subst.
  eapply lit_soft; [exact E1|reflexivity|]. eapply two_soft; [apply ok_month|exact E2|]. eapply lit_soft; [exact E3|reflexivity|].
  eapply two_soft; [apply ok_day|exact E4|exact Hr].
Qed.
Lemma m_time_soft w h m sc f r : m_time re_hour re_min re_sec w = Some (h, m, sc, f, r) -> Forall soft r -> Forall soft w.
Proof.
  unfold m_time. intros H Hr.
  destruct (two re_hour w) as [[h1 r1]|] eqn:E1; [|discriminate].
  destruct (lit chCOLON r1) as [r2|] eqn:E2; [|discriminate].
  destruct (two re_min r2) as [[m1 r3]|] eqn:E3; [|discriminate].
  destruct (lit chCOLON r3) as [r4|] eqn:E4; [|discriminate].
  destruct (two re_sec r4) as [[s1 r5]|] eqn:E5; [|discriminate].
  eapply two_soft; [apply ok_hour|exact E1|]. eapply lit_soft; [exact E2|reflexivity|]. eapply two_soft; [apply ok_min|exact E3|].
  eapply lit_soft; [exact E4|reflexivity|]. eapply two_soft; [apply ok_sec|exact E5|]. clear E1 E2 E3 E4 E5.
  destruct r5 as [|c r6]; [constructor|]. destruct (N.eqb_spec c chDOT) as [->|].
  - constructor; [reflexivity|]. destruct (drop_split is_ascii_digit r6) as (y & E & F).
    destruct (take_while is_ascii_digit r6); inversion H; subst.
    + inversion Hr; subst; assumption.
    + rewrite E. apply Forall_app. split; [apply digs_soft, F|exact Hr].
  - inversion H; subst. exact Hr.
Qed.
Lemma m_tz_soft w o r : m_tz w = (o, r) -> Forall soft r -> Forall soft w.
Proof.
  unfold m_tz. destruct w as [|c w]; [intros H; inversion H; auto|]. destruct ((c =? 90) || (c =? 122))%N%bool eqn:Ec.
  { intros H; inversion H; subst. intros. constructor; [|assumption]. clear H. chr. }
  destruct (_ || _ || _)%bool eqn:Ed.
  - destruct (two re_hour w) as [[h1 r1]|] eqn:E1; [|intros H; inversion H; auto].
    destruct (lit chCOLON r1) as [r2|] eqn:E2; [|intros H; inversion H; auto].
    destruct (two re_min r2) as [[m1 r3]|] eqn:E3; [|intros H; inversion H; auto].
    intros H Hr. inversion H; subst. constructor; [clear -Ed; chr|].
    eapply two_soft; [apply ok_hour|exact E1|]. eapply lit_soft; [exact E2|reflexivity|]. eapply two_soft; [apply ok_min|exact E3|exact Hr].
  - intros H; inversion H; auto.
Qed.
Lemma rfc_soft w v : parse_rfc3339 w = Ok v -> Forall soft w.
Proof.
  unfold parse_rfc3339. destruct (m_datetime w) as [[[d t] tz]|] eqn:E.
  - intros _. unfold m_datetime in E. destruct (m_date re_month re_day w) as [[d1 r]|] eqn:Ed; [|discriminate].
    eapply m_date_soft; [exact Ed|]. destruct r as [|c r]; [discriminate|]. destruct (_ || _)%bool eqn:Ec; [|discriminate].
    destruct (m_time _ _ _ r) as [[[[[h m] sc] f] r1]|] eqn:Et; [|discriminate]. destruct (m_tz r1) as [o r2] eqn:Ez.
    destruct (re_end r2) eqn:Ee; [|discriminate]. constructor; [clear -Ec; chr|].
    eapply m_time_soft; [exact Et|]. eapply m_tz_soft; [exact Ez|]. apply re_end_soft, Ee.
  - destruct (m_date re_month re_day w) as [[d1 r]|] eqn:Ed; [destruct (re_end r) eqn:Ee|].
    { intros _. eapply m_date_soft; [exact Ed|]. apply re_end_soft, Ee. }
    all: clear E Ed; destruct (m_time _ _ _ w) as [[[[[h m] sc] f] r1]|] eqn:Et; [|discriminate];
      destruct (re_end r1) eqn:E1; [|discriminate]; intros _; eapply m_time_soft; [exact Et|]; apply re_end_soft, E1.
Qed.

