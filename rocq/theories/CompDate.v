(** CompDate: every TOML date, time and date-time is read as what it stands for (C38). *)
From Verif Require Import Base Source Utils Items Container Arrays Parser Api Lemmas Escape Strings StringRT StringApi Numbers Floats Dates Keys ContOps PyVal PyItem ItemConv DumpValue Grammar Meaning Denote CompNum.
From Coq Require Import ZifyBool ZifyNat ZifyN.
Open Scope nat_scope.

Lemma pos_snoc w c : is_digit_of 10 c = true -> positional 10 (w ++ [c]) = (positional 10 w * 10 + (c - 48))%N.
Proof.
  intros H. assert (E : hexval c = (c - 48)%N) by (unfold hexval; rewrite (dig10_ascii c H); reflexivity).
  unfold positional. rewrite fold_left_app. cbn [fold_left]. rewrite E. reflexivity.
Qed.
Lemma field_pad k : forall w n, field k w n -> w = dec_pad k n.
Proof.
  induction k as [|k IH]; intros w n (Hl & Hd & ->); [destruct w; [reflexivity|discriminate]|].
  destruct (exists_last (l := w)) as (v & c & ->); [destruct w; discriminate|]. rewrite app_length in Hl. cbn in Hl.
  apply Forall_app in Hd as [Hv Hc]. inversion Hc as [|? ? Hc' _]; subst. rewrite pos_snoc by exact Hc'. pose proof (digit_range c (dig10_ascii c Hc')) as R.
  cbn [dec_pad]. assert (E : ((positional 10 v * 10 + (c - 48)) / 10 = positional 10 v)%N).
  { symmetry. apply (N.div_unique _ 10 _ (c - 48)); lia. }
  assert (E2 : ((positional 10 v * 10 + (c - 48)) mod 10 = c - 48)%N). { symmetry. apply (N.mod_unique _ 10 (positional 10 v)); lia. }
  rewrite E, E2. f_equal; [apply IH; repeat split; [lia|exact Hv]|]. f_equal. lia.
Qed.
Lemma date_is w d : date_means w d -> w = iso_date d /\ real_day (d_year d) (d_month d) (d_day d).
Proof.
  intros [y m dd y' m' d' Hy Hm Hd Hr]. split; [|exact Hr]. unfold iso_date. cbn [d_year d_month d_day]. rewrite <- (field_pad _ _ _ Hy), <- (field_pad _ _ _ Hm), <- (field_pad _ _ _ Hd). reflexivity.
Qed.
Lemma pos_bound base w : base_ok base -> dig base w -> (positional base w < base ^ N.of_nat (List.length w))%N.
Proof.
  intros Hb. induction w as [|c w IH] using rev_ind; intros H; [cbn; lia|]. apply Forall_app in H as [Hw Hc]. inversion Hc as [|? ? Hc' _]; subst.
  unfold positional. rewrite fold_left_app. cbn [fold_left]. fold (positional base w). specialize (IH Hw). rewrite app_length. cbn [List.length]. replace (List.length w + 1) with (S (List.length w)) by lia.
  rewrite Nat2N.inj_succ, N.pow_succ_r'. unfold is_digit_of in Hc'. apply andb_true_iff in Hc' as [_ Hlt]. apply N.ltb_lt in Hlt. nia.
Qed.
Lemma dec_value_pos w : dig 10 w -> dec_value w = positional 10 w.
Proof. intros H. rewrite <- dvalue_pos by exact H. reflexivity. Qed.
Lemma frac_micros f n : second_fraction f n -> (n <= 999999)%N /\ exists o, micros o = n /\
  match f with [] => o = None | c :: ds => c = chDOT /\ ds <> [] /\ digits ds /\ o = Some ds end.
Proof.
  intros [|ds Hn Hd]; [split; [lia|]; exists None; split; reflexivity|].
  assert (H6 : dig 10 (firstn 6 (ds ++ L "000000"))).
  { apply Forall_forall. intros x Hx. assert (X : dig 10 (ds ++ L "000000")) by (apply Forall_app; split; [exact Hd|repeat constructor]). unfold dig in X. rewrite Forall_forall in X. apply X. rewrite <- (firstn_skipn 6). apply in_or_app. left. exact Hx. }
  split.
  - pose proof (pos_bound 10 _ ltac:(unfold base_ok; auto) H6) as B. rewrite firstn_length, app_length in B. change (List.length (L "000000")) with 6 in B.
    replace (Nat.min 6 (List.length ds + 6)) with 6 in B by lia. change (10 ^ N.of_nat 6)%N with 1000000%N in B. lia.
  - exists (Some ds). split; [|repeat split; [exact Hn|apply dig_digits, Hd]].
    unfold micros. assert (E : firstn 6 (ds ++ repeat 48%N (6 - List.length ds)) = firstn 6 (ds ++ L "000000")).
    { rewrite !firstn_app. f_equal. change (L "000000") with (repeat 48%N 6). destruct (List.length ds) as [|[|[|[|[|[|[|]]]]]]]; reflexivity. }
    rewrite E. apply dec_value_pos, H6.
Qed.
(** * Times *)
Definition clock (t : time) : str := dec_pad 2 (t_hour t) ++ [chCOLON] ++ dec_pad 2 (t_min t) ++ [chCOLON] ++ dec_pad 2 (t_sec t).
Lemma time_is w t : time_means w t -> valid_time_p t /\ exists f, w = clock t ++ f /\ second_fraction f (t_us t).
Proof.
  intros [h m s f h' m' s' f' Hh Hm Hs B1 B2 B3 Hf]. split.
  - unfold valid_time_p. cbn [t_hour t_min t_sec t_us]. destruct (frac_micros f f' Hf) as [B4 _]. repeat split; assumption.
  - exists f. split; [|exact Hf]. unfold clock. cbn [t_hour t_min t_sec]. rewrite <- (field_pad _ _ _ Hh), <- (field_pad _ _ _ Hm), <- (field_pad _ _ _ Hs). rewrite <- !app_assoc. reflexivity.
Qed.
Lemma m_time_means okh okm oks Ph Pm Ps w t r : field_is okh Ph -> field_is okm Pm -> field_is oks Ps -> time_means w t -> no_frac r ->
  Ph (t_hour t) = true -> Pm (t_min t) = true -> Ps (t_sec t) = true ->
  exists f, m_time okh okm oks (w ++ r) = Some (t_hour t, t_min t, t_sec t, f, r) /\ micros f = t_us t.
Proof.
  intros Fh Fm Fs Ht Hr Eh Em Es. destruct (time_is w t Ht) as ((H1 & H2 & H3 & H4) & f & -> & Hf).
  unfold m_time, clock. rewrite <- !app_assoc. rewrite (two_pad okh Ph), Eh by (auto; lia). cbn [app]. rewrite lit_hit.
  rewrite (two_pad okm Pm), Em by (auto; lia). cbn [app]. rewrite lit_hit. rewrite (two_pad oks Ps), Es by (auto; lia).
  destruct (frac_micros f (t_us t) Hf) as (_ & o & Eo & Ho). exists o. split; [|exact Eo]. destruct f as [|c ds].
  - subst o. cbn [app]. destruct r as [|c r]; [reflexivity|]. destruct Hr as [Hr _]. apply N.eqb_neq in Hr. rewrite Hr. reflexivity.
  - destruct Ho as (-> & Hn & Hd & ->). cbn [app]. rewrite N.eqb_refl. destruct (take_digits ds r Hd) as [E1' E2'].
    { destruct r as [|c r]; [exact I|]. apply Hr. }
    rewrite E1', E2'. destruct ds; [congruence|reflexivity].
Qed.
Lemma clock_no_date okm okd t r : m_date okm okd (clock t ++ r) = None.
Proof.
  unfold m_date, clock. rewrite <- !app_assoc.
  destruct (pad_take 2 (t_hour t) ([chCOLON] ++ dec_pad 2 (t_min t) ++ [chCOLON] ++ dec_pad 2 (t_sec t) ++ r)) as [E1 E2]; [discriminate|reflexivity|].
  rewrite E1, E2. destruct (dec_pad 2 (t_hour t)); reflexivity.
Qed.
Lemma time_no_date okm okd w t r : time_means w t -> m_date okm okd (w ++ r) = None.
Proof. intros H. destruct (time_is w t H) as (_ & f & -> & _). rewrite <- app_assoc. apply clock_no_date. Qed.
Lemma parse_time_means w t : time_means w t -> parse_rfc3339 w = Ok (RTime t).
Proof.
  intros H. pose proof (proj1 (time_is w t H)) as Hv. pose proof Hv as (H1 & H2 & H3 & H4). rewrite <- (app_nil_r w). unfold parse_rfc3339, m_datetime. rewrite !(time_no_date _ _ w t) by exact H.
  destruct (m_time_means re_hour re_min re_sec _ _ _ w t [] f_hour f_min f_sec H I) as (f & E & Ef); [lia|lia|lia|].
  rewrite E, Ef. cbn [re_end]. unfold py_time. assert (Et : mkTime (t_hour t) (t_min t) (t_sec t) (t_us t) = t) by (destruct t; reflexivity). rewrite Et.
  apply valid_time_iff in Hv. rewrite Hv. reflexivity.
Qed.
Lemma time_head w t : time_means w t -> exists c r, w = c :: r /\ is_ascii_digit c = true.
Proof.
  intros H. destruct (time_is w t H) as (_ & f & -> & _). unfold clock. destruct (pad_cons 2 (t_hour t)) as (x & l & E & Ex); [discriminate|]. rewrite E. cbn [app]. eauto.
Qed.
Lemma loose_time_means w t r : time_means w t -> no_frac r -> snd (m_tz r) = [] -> m_loose_time (w ++ r) = true.
Proof.
  intros H Hr Hz. unfold m_loose_time. destruct (time_head w t H) as (c & x & E & Hc).
  replace (match w ++ r with [] => w ++ r | c :: r0 => if ((c =? 84) || (c =? 116) || (c =? chSP))%N then r0 else w ++ r end) with (w ++ r).
  2: { rewrite E. cbn [app]. rewrite digit_not_t by exact Hc. reflexivity. }
  destruct (m_time_means re_dd re_dd re_dd _ _ _ w t r f_dd f_dd f_dd H Hr) as (f & Em & _); [reflexivity..|].
  rewrite Em, Hz. reflexivity.
Qed.
(** Characters. *)
Definition dchar (c : char) : Prop := is_ascii_digit c = true \/ In c [45; 58; 46; 43; 84; 116; 90; 122]%N.
Lemma dchar_delim c : dchar c -> is_val_delim c = false /\ py_isspace c = false.
Proof.
  intros [H|H]; [apply digit_range in H; unfold is_val_delim, py_isspace, chSP, chTAB, chLF, chCR, chHASH, chCOMMA, chRBR, chRCB; lia|].
  cbn [In] in H. repeat (destruct H as [<-|H]; [split; reflexivity|]). destruct H.
Qed.
Lemma pad_dchar k n : Forall dchar (dec_pad k n).
Proof. destruct (dec_pad_digits k n) as [H _]. eapply Forall_impl; [|exact H]. intros c X. left. exact X. Qed.
Lemma one_dchar c : In c [45; 58; 46; 43; 84; 116; 90; 122]%N -> Forall dchar [c].
Proof. intros H. constructor; [right; exact H|constructor]. Qed.
Lemma iso_dchar d : Forall dchar (iso_date d).
Proof. unfold iso_date. rewrite ?Forall_app; repeat split; (apply pad_dchar || (apply one_dchar; cbn; tauto)). Qed.
Lemma time_dchar w t : time_means w t -> Forall dchar w.
Proof.
  intros H. destruct (time_is w t H) as (_ & f & -> & Hf). apply Forall_app. split.
  - unfold clock. rewrite ?Forall_app; repeat split; (apply pad_dchar || (apply one_dchar; cbn; tauto)).
  - destruct Hf as [|ds _ Hd]; [constructor|]. apply Forall_app. split; [apply one_dchar; cbn; tauto|]. apply dig_digits in Hd. eapply Forall_impl; [|exact Hd]. intros c X. left; exact X.
Qed.
(** * Offsets *)
Lemma off_is w o : offset_means w o -> m_tz w = (o, []) /\ no_frac w /\ off_ok o /\ Forall dchar w.
Proof.
  intros [|z Hz|s neg h m h' m' Hs Hn Hh Hm B1 B2].
  - repeat split; auto.
  - split; [destruct Hz as [->| ->]; reflexivity|]. split; [destruct Hz as [->| ->]; split; (reflexivity || discriminate)|]. split; [cbn; lia|]. apply one_dchar. destruct Hz as [->| ->]; cbn; tauto.
  - rewrite (field_pad _ _ _ Hh), (field_pad _ _ _ Hm). clear Hh Hm.
    assert (D : Forall dchar (dec_pad 2 h' ++ [58%N] ++ dec_pad 2 m')) by (rewrite ?Forall_app; repeat split; (apply pad_dchar || (apply one_dchar; cbn; tauto))).
    assert (Q : two re_hour (dec_pad 2 h' ++ [58%N] ++ dec_pad 2 m') = Some (h', [58%N] ++ dec_pad 2 m')).
    { rewrite (two_pad re_hour _ _ _ f_hour) by lia. apply N.leb_le in B1. rewrite B1. reflexivity. }
    assert (Q2 : two re_min (dec_pad 2 m') = Some (m', [])).
    { rewrite <- (app_nil_r (dec_pad 2 m')). rewrite (two_pad re_min _ _ _ f_min) by lia. apply N.leb_le in B2. rewrite B2. reflexivity. }
    destruct Hs; [congruence| |].
    + split; [|split; [split; [discriminate|reflexivity]|split; [unfold off_ok; lia|constructor; [right; cbn; tauto|exact D]]]].
      cbn [app m_tz] in *. unfold m_tz. change ((43 =? 90)%N || (43 =? 122)%N) with false. change ((43 =? chPLUS)%N || (43 =? 124)%N || (43 =? chMINUS)%N) with true. cbv iota.
      rewrite Q. change (lit chCOLON (58%N :: dec_pad 2 m')) with (Some (dec_pad 2 m')). cbv iota beta. rewrite Q2. change (43 =? chMINUS)%N with false. cbv iota. do 2 f_equal. lia.
    + split; [|split; [split; [discriminate|reflexivity]|split; [unfold off_ok; lia|constructor; [right; cbn; tauto|exact D]]]].
      cbn [app m_tz] in *. unfold m_tz. change ((45 =? 90)%N || (45 =? 122)%N) with false. change ((45 =? chPLUS)%N || (45 =? 124)%N || (45 =? chMINUS)%N) with true. cbv iota.
      rewrite Q. change (lit chCOLON (58%N :: dec_pad 2 m')) with (Some (dec_pad 2 m')). cbv iota beta. rewrite Q2. change (45 =? chMINUS)%N with true. cbv iota. do 2 f_equal.
Qed.
(** * Date-times *)
Lemma parse_dt_means w d x t o d' t' o' : w = iso_date d' ++ [x] ++ t ++ o -> d = mkDT d' t' o' -> real_day (d_year d') (d_month d') (d_day d') -> x = 84%N \/ x = 116%N \/ x = 32%N ->
  time_means t t' -> offset_means o o' -> parse_rfc3339 w = Ok (RDateTime d) /\ loose_match w = Some (true, true).
Proof.
  intros -> -> Hd Hx Ht Ho. destruct (off_is o o' Ho) as (Etz & Hnf & Hok & _). pose proof (real_day_small _ Hd) as Hsd.
  assert (Ex : ((x =? 84) || (x =? 116) || (x =? chSP))%N = true) by (destruct Hx as [->|[->| ->]]; reflexivity).
  split.
  - unfold parse_rfc3339, m_datetime. rewrite (m_date_iso _ _ _ _ d' _ f_month f_day Hsd). rewrite (small_day31 _ _ _ Hd). cbn [app]. rewrite Ex.
    pose proof (proj1 (time_is t t' Ht)) as Hv. pose proof Hv as (H1 & H2 & H3 & H4).
    destruct (m_time_means re_hour re_min re_sec _ _ _ t t' o f_hour f_min f_sec Ht Hnf) as (f & E & Ef); [lia|lia|lia|].
    rewrite E, Ef, Etz. cbn [re_end]. unfold py_datetime.
    assert (Et : mkTime (t_hour t') (t_min t') (t_sec t') (t_us t') = t') by (destruct t'; reflexivity). rewrite Et.
    assert (Ey : (2147483647 <? d_year d')%N = false) by (unfold small_date in Hsd; lia). rewrite Ey.
    apply valid_time_iff in Hv. apply valid_date_iff in Hd. rewrite Hv, Hd. reflexivity.
  - unfold loose_match. rewrite (m_date_iso _ _ _ _ d' _ f_dd f_dd Hsd). cbn [andb].
    assert (E : m_loose_time ([x] ++ t ++ o) = true).
    { unfold m_loose_time. cbn [app]. rewrite Ex.
      destruct (m_time_means re_dd re_dd re_dd _ _ _ t t' o f_dd f_dd f_dd Ht Hnf) as (f & Em & _); [reflexivity..|]. rewrite Em, Etz. reflexivity. }
    rewrite E. reflexivity.
Qed.
(** * Through the value parser *)
Lemma dig_start strict n pre s rest mk : (exists c r, s = c :: r /\ is_ascii_digit c = true) ->
  parse_value strict (S n) (mkSt pre (s ++ rest) mk) = parse_digit_value (mkSt pre (s ++ rest) (List.length pre)).
Proof. intros (c & r & -> & H). cbn [app]. apply pv_digit, H. Qed.
Lemma dchar_no_delim s : Forall dchar s -> no_delim s.
Proof. apply Forall_impl. intros c H. apply dchar_delim, H. Qed.
Lemma time_reads w t : time_means w t -> exists sv tr, reads_as w (IVal sv tr) delim_tail /\ unwrap (IVal sv tr) = Some (PTime t) /\ scalar_string sv = w.
Proof.
  intros H. exists (STime t w), default_trivia. split; [|split; reflexivity]. intros strict n pre mk tail Ht Hn. destruct n as [|n]; [lia|].
  rewrite dig_start by (eapply time_head, H). unfold parse_digit_value. unfold bind at 1, adv_whileM. rewrite adv_token; [|apply dchar_no_delim; eapply time_dchar, H|exact Ht].
  unfold bind at 1, extractM. rewrite extract_tok.
  assert (E : loose_match w = Some (false, true)).
  { unfold loose_match. rewrite <- (app_nil_r w). rewrite (time_no_date _ _ w t) by exact H. rewrite (loose_time_means w t []) by (auto; exact I). reflexivity. }
  rewrite E, (parse_time_means w t H). cbn [value_error]. eexists. reflexivity.
Qed.
Lemma iso_head d : exists c r, iso_date d = c :: r /\ is_ascii_digit c = true.
Proof. destruct (iso_date_head d []) as (c & r & E & H). rewrite app_nil_r in E. eauto. Qed.
Lemma dt_T_reads w d x t o d' t' o' : w = iso_date d' ++ [x] ++ t ++ o -> d = mkDT d' t' o' -> real_day (d_year d') (d_month d') (d_day d') -> x = 84%N \/ x = 116%N ->
  time_means t t' -> offset_means o o' -> exists sv tr, reads_as w (IVal sv tr) delim_tail /\ unwrap (IVal sv tr) = Some (PDateTime d) /\ scalar_string sv = w.
Proof.
  intros Ew Ed Hd Hx Ht Ho. exists (SDateTime d w), default_trivia. split; [|split; reflexivity]. intros strict n pre mk tail Htl Hn. destruct n as [|n]; [lia|].
  destruct (parse_dt_means w d x t o d' t' o' Ew Ed Hd) as [P Lm]; auto; [destruct Hx; auto|].
  rewrite dig_start. 2: { rewrite Ew. destruct (iso_head d') as (c & r & -> & Hc). cbn [app]. eauto. }
  unfold parse_digit_value. unfold bind at 1, adv_whileM. rewrite adv_token; [| |exact Htl].
  2: { rewrite Ew. apply dchar_no_delim. apply Forall_app. split; [apply iso_dchar|]. apply Forall_app. split; [apply one_dchar; destruct Hx as [->| ->]; cbn; tauto|].
       apply Forall_app. split; [eapply time_dchar, Ht|apply (off_is o o' Ho)]. }
  unfold bind at 1, extractM. rewrite extract_tok, Lm, P. cbn [value_error]. eexists. reflexivity.
Qed.
Lemma rstrip_keep w sp : Forall (fun c => py_isspace c = true) sp -> (w = [] \/ exists v c, w = v ++ [c] /\ py_isspace c = false) -> rstrip (w ++ sp) = w.
Proof.
  intros Hs Hw. unfold rstrip, rstrip_p. rewrite rev_app_distr.
  assert (E : drop_while py_isspace (rev sp ++ rev w) = rev w).
  { apply (take_while_app py_isspace (rev sp) (rev w)); [apply Forall_rev, Hs|]. destruct Hw as [->|(v & c & -> & H)]; [exact I|]. rewrite rev_app_distr. exact H. }
  rewrite E. apply rev_involutive.
Qed.
Lemma dchar_last w : Forall dchar w -> w <> [] -> exists v c, w = v ++ [c] /\ py_isspace c = false.
Proof. intros H Hn. destruct (exists_last Hn) as (v & c & ->). exists v, c. split; [reflexivity|]. apply Forall_app in H as [_ H]. inversion H. apply dchar_delim; assumption. Qed.
Lemma spaces_stop sp : Forall (fun c => c = 32%N) sp -> Forall (fun c => negb (is_date_stop c) = true) sp /\ Forall (fun c => py_isspace c = true) sp.
Proof. intros H. split; (eapply Forall_impl; [|exact H]); intros c ->; reflexivity. Qed.
(** A date, or a date, a space and a time; the spaces after it go to the item. *)
Lemma date_space_run d' tm v : real_day (d_year d') (d_month d') (d_day d') ->
  (tm = [] /\ v = PDate d' \/ exists t o t' o', tm = [32%N] ++ t ++ o /\ time_means t t' /\ offset_means o o' /\ v = PDateTime (mkDT d' t' o')) ->
  forall sp tail, Forall (fun c => c = 32%N) sp -> date_tail tail -> exists sv t, unwrap (IVal sv t) = Some v /\ scalar_string sv = iso_date d' ++ tm /\
    forall sf n pre mk, exists mk', parse_value sf (S n) (mkSt pre ((iso_date d' ++ tm) ++ sp ++ tail) mk) = (Ok (IVal sv t), mkSt (pre ++ (iso_date d' ++ tm) ++ sp) tail mk').
Proof.
  intros Hd Hv sp tail Hsp Ht. destruct (spaces_stop sp Hsp) as [S1 S2]. pose proof (real_day_small _ Hd) as Hs.
  assert (Tm : Forall (fun c => negb (is_date_stop c) = true) tm /\ (tm = [] \/ exists v c, tm = v ++ [c] /\ py_isspace c = false)).
  { destruct Hv as [[-> _]|(t & o & t' & o' & -> & Ht' & Ho & _)]; [split; [constructor|left; reflexivity]|]. destruct (off_is o o' Ho) as (_ & _ & _ & Do).
    pose proof (time_dchar t t' Ht') as Dt. assert (D : Forall dchar (t ++ o)) by (apply Forall_app; auto). split.
    - constructor; [reflexivity|]. eapply Forall_impl; [|exact D]. intros c X. unfold is_date_stop. rewrite (proj1 (dchar_delim c X)). reflexivity.
    - right. destruct (dchar_last (t ++ o) D) as (x & c & E & Hc). { destruct (time_head t t' Ht') as (c & r & -> & _). discriminate. }
      rewrite E. exists ([32%N] ++ x), c. split; [rewrite <- app_assoc; reflexivity|exact Hc]. }
  destruct Tm as [T1 T2].
  set (tr := mkTrivia [] sp [] [chLF]).
  exists (match v with PDateTime d => SDateTime d (iso_date d' ++ tm) | _ => SDate d' (iso_date d') end), tr.
  split; [destruct Hv as [[_ ->]|(t & o & t' & o' & _ & _ & _ & ->)]; reflexivity|]. split; [destruct Hv as [[-> ->]|(t & o & t' & o' & _ & _ & _ & ->)]; [symmetry; apply app_nil_r|reflexivity]|].
  intros sf n pre mk. exists (List.length (pre ++ iso_date d')). rewrite <- app_assoc.
  rewrite dig_start by apply iso_head. unfold parse_digit_value. unfold bind at 1, adv_whileM at 1. rewrite adv_token; [|apply dchar_no_delim, iso_dchar|].
  2: { destruct tm as [|c tm]; [|destruct Hv as [[X _]|(t & o & t' & o' & X & _)]; [discriminate|inversion X; reflexivity]]. cbn [app].
       destruct sp as [|c sp]; [apply date_tail_delim, Ht|]. inversion Hsp; subst. reflexivity. }
  unfold bind at 1, extractM at 1. rewrite extract_tok, loose_date by exact Hs. destruct (parse_iso_date d' Hs) as [[E _]|[_ E]]; [|contradiction]. rewrite E. cbn [value_error].
  unfold bind at 1, ret at 1. unfold bind at 1, mark, set_mark. cbn [p_pre p_rest]. unfold bind at 1, adv_whileM, adv_while. cbn [p_pre p_rest p_mark].
  destruct (take_while_app (fun c => negb (is_date_stop c)) (tm ++ sp) tail) as [A1 A2]; [apply Forall_app; split; assumption|destruct tail as [|c tail]; [exact I|cbn in Ht; rewrite Ht; reflexivity]|].
  rewrite <- app_assoc in A1, A2. rewrite A1, A2. unfold bind at 1, extractM, extract. cbn [p_mark p_pre]. rewrite skipn_length_app. rewrite rstrip_keep by assumption.
  rewrite skipn_length_app. fold tr.
  destruct Hv as [[-> ->]|(t & o & t' & o' & -> & Ht' & Ho & ->)].
  - cbn [app]. unfold ret. rewrite app_nil_r, app_assoc. reflexivity.
  - cbn [app]. destruct (parse_dt_means (iso_date d' ++ [32%N] ++ t ++ o) (mkDT d' t' o') 32 t o d' t' o') as [P _]; auto. cbn [app] in P. rewrite P. cbn [value_error]. unfold bind at 1, ret. rewrite <- !app_assoc. cbn [app]. rewrite <- ?app_assoc. reflexivity.
Qed.
