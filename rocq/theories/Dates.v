(** Dates: ISO texts of dates, times and datetimes read back (C13, C14, C15). *)
From Verif Require Import Base Source Utils Items Container Arrays Parser Api Lemmas Escape Strings StringRT StringApi Numbers.
From Coq Require Import ZifyBool ZifyNat ZifyN.
Open Scope nat_scope.

(** ** Zero-padded fields *)
Lemma dec_pad_digits w : forall n, Forall (fun c => is_ascii_digit c = true) (dec_pad w n) /\ List.length (dec_pad w n) = w.
Proof.
  induction w as [|w IH]; intros n; cbn [dec_pad]; [split; [constructor|reflexivity]|].
  destruct (IH (n / 10)%N) as [H1 H2]. split.
  - apply Forall_app. split; [exact H1|]. constructor; [|constructor].
    pose proof (N.mod_lt n 10). unfold is_ascii_digit. lia.
  - rewrite app_length, H2. cbn. lia.
Qed.
Lemma dec_value_app a b : dec_value (a ++ [b]) = (dec_value a * 10 + (b - 48))%N.
Proof. unfold dec_value. rewrite fold_left_app. reflexivity. Qed.
Lemma dec_value_pad w : forall n, (n < 10 ^ N.of_nat w)%N -> dec_value (dec_pad w n) = n.
Proof.
  induction w as [|w IH]; intros n H; cbn [dec_pad].
  - cbn in H. cbn. lia.
  - rewrite dec_value_app, IH.
    + pose proof (N.div_mod n 10). lia.
    + apply N.div_lt_upper_bound; [lia|]. rewrite Nat2N.inj_succ, N.pow_succ_r' in H. exact H.
Qed.
Lemma pad_take w n r : w <> 0 -> match r with [] => True | c :: _ => is_ascii_digit c = false end ->
  take_while is_ascii_digit (dec_pad w n ++ r) = dec_pad w n /\ drop_while is_ascii_digit (dec_pad w n ++ r) = r.
Proof.
  intros _ Hr. destruct (dec_pad_digits w n) as [H _]. apply take_while_app; [exact H|].
  destruct r; [exact I|exact Hr].
Qed.
Lemma pad_cons w n : w <> 0 -> exists d l, dec_pad w n = d :: l /\ is_ascii_digit d = true.
Proof.
  intros Hw. destruct (dec_pad_digits w n) as [H1 H2]. destruct (dec_pad w n) as [|d l]; [cbn in H2; lia|].
  inversion H1; subst. eauto.
Qed.

(** Two-digit fields: [ok] is described by a predicate on the number. *)
Definition field_is (ok : char -> char -> bool) (P : N -> bool) : Prop :=
  forall n, (n < 100)%N -> ok (48 + n / 10)%N (48 + n mod 10)%N = P n.
Lemma field_sweep ok P : forallb (fun k => let n := N.of_nat k in Bool.eqb (ok (48 + n / 10) (48 + n mod 10))%N (P n)) (seq 0 100) = true ->
  field_is ok P.
Proof.
  intros H n Hn. rewrite forallb_forall in H. specialize (H (N.to_nat n)). rewrite N2Nat.id in H.
  apply Bool.eqb_prop. apply H. apply in_seq. lia.
Qed.
Lemma two_pad ok P n r : field_is ok P -> (n < 100)%N ->
  two ok (dec_pad 2 n ++ r) = if P n then Some (n, r) else None.
Proof.
  intros H Hn. cbn [dec_pad app]. unfold two.
  assert (E : ((n / 10) mod 10 = n / 10)%N) by (apply N.mod_small; apply N.div_lt_upper_bound; lia).
  rewrite E, (H n Hn). destruct (P n); [|reflexivity]. do 2 f_equal.
  pose proof (N.div_mod n 10). lia.
Qed.
Lemma f_month : field_is re_month (fun n => (1 <=? n) && (n <=? 12))%N.
Proof. apply field_sweep. vm_compute. reflexivity. Qed.
Lemma f_day : field_is re_day (fun n => (1 <=? n) && (n <=? 31))%N.
Proof. apply field_sweep. vm_compute. reflexivity. Qed.
Lemma f_hour : field_is re_hour (fun n => n <=? 23)%N.
Proof. apply field_sweep. vm_compute. reflexivity. Qed.
Lemma f_min : field_is re_min (fun n => n <=? 59)%N.
Proof. apply field_sweep. vm_compute. reflexivity. Qed.
Lemma f_sec : field_is re_sec (fun n => n <=? 60)%N.
Proof. apply field_sweep. vm_compute. reflexivity. Qed.
Lemma f_dd : field_is re_dd (fun _ => true).
Proof. apply field_sweep. vm_compute. reflexivity. Qed.

Lemma lit_hit c r : lit c (c :: r) = Some r.
Proof. cbn. rewrite N.eqb_refl. reflexivity. Qed.

(** ** Dates *)
Definition small_date (d : date) : Prop := (d_year d <= 9999 /\ d_month d <= 99 /\ d_day d <= 99)%N.
Lemma m_date_iso okm okd Pm Pd d r : field_is okm Pm -> field_is okd Pd -> small_date d ->
  m_date okm okd (iso_date d ++ r) = if Pm (d_month d) && Pd (d_day d) then Some (d, r) else None.
Proof.
  intros Hm Hd (H1 & H2 & H3). unfold m_date, iso_date. rewrite <- !app_assoc.
  destruct (pad_take 4 (d_year d) ([chMINUS] ++ dec_pad 2 (d_month d) ++ [chMINUS] ++ dec_pad 2 (d_day d) ++ r)) as [E1 E2];
    [discriminate|reflexivity|].
  rewrite E1, E2. destruct (pad_cons 4 (d_year d)) as (x & l & E3 & _); [discriminate|].
  rewrite E3. rewrite <- E3. cbn [app]. rewrite lit_hit.
  rewrite (two_pad okm Pm) by (auto; lia). destruct (Pm (d_month d)); [|reflexivity]. cbn [andb].
  rewrite lit_hit. rewrite (two_pad okd Pd) by (auto; lia). destruct (Pd (d_day d)); [|reflexivity].
  rewrite dec_value_pad by (change (10 ^ N.of_nat 4)%N with 10000%N; lia). destruct d; reflexivity.
Qed.

(** ** Times *)
Lemma micros_pad n : (n < 1000000)%N -> micros (Some (dec_pad 6 n)) = n.
Proof.
  intros H. unfold micros. destruct (dec_pad_digits 6 n) as [_ E]. rewrite E. cbn [Nat.sub repeat]. rewrite app_nil_r.
  rewrite <- E at 1. rewrite firstn_all. apply dec_value_pad. exact H.
Qed.
Definition small_time (t : time) : Prop := (t_hour t <= 99 /\ t_min t <= 99 /\ t_sec t <= 99 /\ t_us t <= 999999)%N.
Definition no_frac (r : str) : Prop := match r with [] => True | c :: _ => c <> chDOT /\ is_ascii_digit c = false end.
Lemma m_time_iso okh okm oks Ph Pm Ps t r : field_is okh Ph -> field_is okm Pm -> field_is oks Ps ->
  small_time t -> no_frac r -> Ph (t_hour t) = true -> Pm (t_min t) = true -> Ps (t_sec t) = true ->
  exists f, m_time okh okm oks (iso_time t ++ r) = Some (t_hour t, t_min t, t_sec t, f, r) /\ micros f = t_us t.
Proof.
  intros Hh Hm Hs (H1 & H2 & H3 & H4) Hr Eh Em Es. unfold m_time, iso_time. rewrite <- !app_assoc.
  rewrite (two_pad okh Ph), Eh by (auto; lia). cbn [app]. rewrite lit_hit.
  rewrite (two_pad okm Pm), Em by (auto; lia). cbn [app]. rewrite lit_hit.
  rewrite (two_pad oks Ps), Es by (auto; lia).
  destruct (N.eqb_spec (t_us t) 0) as [E0|Hne].
  - exists None. cbn [app]. split; [|cbn; lia]. destruct r as [|c r]; [reflexivity|]. destruct Hr as [Hr _].
    apply N.eqb_neq in Hr. rewrite Hr. reflexivity.
  - exists (Some (dec_pad 6 (t_us t))). split; [|apply micros_pad; lia].
    cbn [app]. rewrite N.eqb_refl.
    destruct (pad_take 6 (t_us t) r) as [E1 E2]; [discriminate| |].
    { destruct r as [|c r]; [exact I|]. destruct Hr as [_ Hr]. exact Hr. }
    destruct (pad_cons 6 (t_us t)) as (x & l & E3 & _); [discriminate|]. rewrite E1, E2, E3. reflexivity.
Qed.

(** ** Offsets *)
Definition off_text (o : option Z) : str := match o with Some 0%Z => [90%N] | _ => iso_off o end.
Definition off_ok (o : option Z) : Prop := match o with Some z => (-1440 < z < 1440)%Z | None => True end.
Lemma m_tz_iso o : off_ok o -> m_tz (off_text o) = (o, []) /\ m_tz (iso_off o) = (o, []).
Proof.
  intros H. destruct o as [z|]; [|split; reflexivity].
  assert (G : m_tz (iso_off (Some z)) = (Some z, [])).
  { unfold iso_off, m_tz. simpl in H.
    assert (Ha : (Z.abs_N z < 1440)%N) by lia.
    set (a := Z.abs_N z) in *.
    assert (Hh : (a / 60 <= 23)%N) by (assert (a / 60 < 24)%N by (apply N.div_lt_upper_bound; lia); lia).
    assert (Hm : (a mod 60 <= 59)%N) by (pose proof (N.mod_lt a 60); lia).
    assert (E : two re_hour (dec_pad 2 (a / 60) ++ [chCOLON] ++ dec_pad 2 (a mod 60)) = Some ((a / 60)%N, [chCOLON] ++ dec_pad 2 (a mod 60))).
    { rewrite (two_pad re_hour _ _ _ f_hour) by lia. apply N.leb_le in Hh. rewrite Hh. reflexivity. }
    assert (E2 : two re_min (dec_pad 2 (a mod 60)) = Some ((a mod 60)%N, [])).
    { rewrite <- (app_nil_r (dec_pad 2 (a mod 60))). rewrite (two_pad re_min _ _ _ f_min) by lia. apply N.leb_le in Hm. rewrite Hm. reflexivity. }
    rewrite E. cbn [app]. rewrite lit_hit, E2.
    pose proof (N.div_mod a 60) as Hdm.
    destruct (Z.ltb_spec z 0).
    - change ((chMINUS =? 90)%N || (chMINUS =? 122)%N) with false.
      change ((chMINUS =? chPLUS)%N || (chMINUS =? 124)%N || (chMINUS =? chMINUS)%N) with true. cbv iota.
      rewrite N.eqb_refl. do 2 f_equal. lia.
    - change ((chPLUS =? 90)%N || (chPLUS =? 122)%N) with false.
      change ((chPLUS =? chPLUS)%N || (chPLUS =? 124)%N || (chPLUS =? chMINUS)%N) with true. cbv iota.
      change ((chPLUS =? chMINUS)%N) with false. cbv iota. do 2 f_equal. lia. }
  split; [|exact G]. unfold off_text. destruct z; [reflexivity|exact G|exact G].
Qed.
Lemma off_no_frac o : no_frac (off_text o).
Proof.
  unfold off_text, iso_off. destruct o as [z|]; [|exact I].
  destruct z; cbn; split; try discriminate; reflexivity.
Qed.

(** ** parse_rfc3339 *)
Lemma digit_not_t c : is_ascii_digit c = true -> ((c =? 84) || (c =? 116) || (c =? chSP))%N = false.
Proof. unfold is_ascii_digit, chSP. lia. Qed.

(** The Gregorian calendar, stated on its own. *)
Definition leap_year (y : N) : Prop := (y mod 4 = 0 /\ (y mod 100 <> 0 \/ y mod 400 = 0))%N.
Inductive month_length (y : N) : N -> N -> Prop :=
  | ml31 m : In m [1; 3; 5; 7; 8; 10; 12]%N -> month_length y m 31
  | ml30 m : In m [4; 6; 9; 11]%N -> month_length y m 30
  | ml29 : leap_year y -> month_length y 2 29
  | ml28 : ~ leap_year y -> month_length y 2 28.
Definition real_day (y m d : N) : Prop :=
  (1 <= y <= 9999 /\ exists len, month_length y m len /\ 1 <= d <= len)%N.

Lemma is_leap_iff y : is_leap y = true <-> leap_year y.
Proof.
  unfold is_leap, leap_year. rewrite andb_true_iff, orb_true_iff, negb_true_iff, !N.eqb_eq, N.eqb_neq. tauto.
Qed.
Lemma days_in_month_iff y m len : (1 <= m <= 12)%N -> month_length y m len <-> len = days_in_month y m.
Proof.
  intros Hm. split.
  - intros H. destruct H as [m H|m H|H|H]; cbn in H.
    + unfold days_in_month. repeat (destruct H as [<-|H]; [reflexivity|]). contradiction.
    + unfold days_in_month. repeat (destruct H as [<-|H]; [reflexivity|]). contradiction.
    + apply is_leap_iff in H. unfold days_in_month. rewrite H. reflexivity.
    + rewrite <- is_leap_iff in H. apply Bool.not_true_is_false in H. unfold days_in_month. rewrite H. reflexivity.
  - intros ->. assert (C : (m = 1 \/ m = 2 \/ m = 3 \/ m = 4 \/ m = 5 \/ m = 6 \/ m = 7 \/ m = 8 \/ m = 9 \/ m = 10 \/ m = 11 \/ m = 12)%N) by lia.
    destruct (N.eq_dec m 2) as [->|H2].
    + unfold days_in_month. destruct (is_leap y) eqn:E; cbn; constructor.
      * apply is_leap_iff. exact E.
      * rewrite <- is_leap_iff. rewrite E. discriminate.
    + repeat (destruct C as [->|C]; [try (apply ml31; cbn; tauto); try (apply ml30; cbn; tauto); congruence|]).
      subst. apply ml31; cbn; tauto.
Qed.
Lemma valid_date_iff d : valid_date d = true <-> real_day (d_year d) (d_month d) (d_day d).
Proof.
  unfold valid_date, real_day. rewrite !andb_true_iff, !N.leb_le. split.
  - intros (((((H1 & H2) & H3) & H4) & H5) & H6). split; [lia|].
    exists (days_in_month (d_year d) (d_month d)). split; [apply days_in_month_iff; [lia|reflexivity]|lia].
  - intros (H1 & len & H2 & H3).
    assert (1 <= d_month d <= 12)%N by (destruct H2 as [m H|m H|H|H]; cbn in H; intuition lia).
    apply days_in_month_iff in H2; [|assumption]. subst len. lia.
Qed.
Lemma real_day_small d : real_day (d_year d) (d_month d) (d_day d) -> small_date d.
Proof.
  intros H. apply valid_date_iff in H. unfold valid_date in H.
  rewrite !andb_true_iff, !N.leb_le in H. destruct H as (((((H1 & H2) & H3) & H4) & H5) & H6).
  assert (days_in_month (d_year d) (d_month d) <= 31)%N.
  { unfold days_in_month. destruct (_ =? 2)%N; [destruct (is_leap _); lia|]. destruct (_ || _); lia. }
  unfold small_date. lia.
Qed.
Lemma small_day31 y m d : real_day y m d -> ((1 <=? m) && (m <=? 12) && ((1 <=? d) && (d <=? 31)) = true)%N.
Proof.
  intros H. change y with (d_year (mkDate y m d)) in H. change m with (d_month (mkDate y m d)) in H at 1.
  change d with (d_day (mkDate y m d)) in H at 1.
  apply valid_date_iff in H. unfold valid_date in H. cbn [d_year d_month d_day] in H.
  rewrite !andb_true_iff, !N.leb_le in H. destruct H as (((((H1 & H2) & H3) & H4) & H5) & H6).
  assert (days_in_month y m <= 31)%N.
  { unfold days_in_month. destruct (_ =? 2)%N; [destruct (is_leap _); lia|]. destruct (_ || _); lia. }
  lia.
Qed.

Lemma iso_date_no_colon_time d s : m_time re_hour re_min re_sec (iso_date d ++ s) = None.
Proof.
  unfold iso_date. rewrite <- !app_assoc. cbn [dec_pad app]. unfold m_time, two.
  destruct (re_hour _ _); [|reflexivity]. unfold lit.
  match goal with |- context [((48 + ?x) =? chCOLON)%N] => assert (E : ((48 + x) =? chCOLON)%N = false) end.
  { pose proof (N.mod_lt (d_year d / 10) 10). unfold chCOLON. lia. }
  rewrite E. reflexivity.
Qed.

(** A four-digit year, two-digit month and day text is accepted exactly when it is
    a day of the calendar. *)
Lemma parse_iso_date d : small_date d ->
  (parse_rfc3339 (iso_date d) = Ok (RDate d) /\ real_day (d_year d) (d_month d) (d_day d)) \/
  (parse_rfc3339 (iso_date d) = Err ValueErrorE /\ ~ real_day (d_year d) (d_month d) (d_day d)).
Proof.
  intros Hs. unfold parse_rfc3339, m_datetime. rewrite <- (app_nil_r (iso_date d)).
  rewrite (m_date_iso _ _ _ _ d [] f_month f_day Hs).
  destruct (((1 <=? d_month d) && (d_month d <=? 12) && ((1 <=? d_day d) && (d_day d <=? 31)))%N) eqn:E.
  - cbn [re_end]. unfold py_date. assert (Ey : (2147483647 <? d_year d)%N = false) by (unfold small_date in Hs; lia).
    rewrite Ey. destruct (valid_date d) eqn:Ev; [left|right]; cbn [rbind]; (split; [reflexivity|]).
    + apply valid_date_iff. exact Ev.
    + rewrite <- valid_date_iff, Ev. discriminate.
  - right. split.
    + rewrite iso_date_no_colon_time. reflexivity.
    + intros H. apply small_day31 in H. rewrite H in E. discriminate.
Qed.

Definition valid_time_p (t : time) : Prop := (t_hour t <= 23 /\ t_min t <= 59 /\ t_sec t <= 59 /\ t_us t <= 999999)%N.
Lemma valid_time_iff t : valid_time t = true <-> valid_time_p t.
Proof. unfold valid_time, valid_time_p. lia. Qed.
Lemma iso_time_no_date oks okd t r : m_date oks okd (iso_time t ++ r) = None.
Proof.
  unfold m_date, iso_time. rewrite <- !app_assoc.
  destruct (pad_take 2 (t_hour t) ([chCOLON] ++ dec_pad 2 (t_min t) ++ [chCOLON] ++ dec_pad 2 (t_sec t)
     ++ (if (t_us t =? 0)%N then [] else chDOT :: dec_pad 6 (t_us t)) ++ r)) as [E1 E2]; [discriminate|reflexivity|].
  rewrite E1, E2. destruct (dec_pad 2 (t_hour t)); reflexivity.
Qed.
Lemma valid_small_time t : valid_time_p t -> small_time t.
Proof. unfold valid_time_p, small_time. lia. Qed.

Lemma parse_iso_time t : valid_time_p t -> parse_rfc3339 (iso_time t) = Ok (RTime t).
Proof.
  intros Hv. unfold parse_rfc3339, m_datetime. rewrite <- (app_nil_r (iso_time t)), !iso_time_no_date.
  pose proof Hv as (H1 & H2 & H3 & H4).
  destruct (m_time_iso re_hour re_min re_sec _ _ _ t [] f_hour f_min f_sec (valid_small_time t Hv) I) as (f & E & Ef); [lia|lia|lia|].
  rewrite E, Ef. cbn [re_end]. unfold py_time.
  assert (Et : mkTime (t_hour t) (t_min t) (t_sec t) (t_us t) = t) by (destruct t; reflexivity). rewrite Et.
  apply valid_time_iff in Hv. rewrite Hv. reflexivity.
Qed.

Definition valid_dt (d : datetime) : Prop :=
  real_day (d_year (dt_date d)) (d_month (dt_date d)) (d_day (dt_date d)) /\ valid_time_p (dt_time d) /\ off_ok (dt_off d).
Definition dt_text (d : datetime) : str := iso_date (dt_date d) ++ [84%N] ++ iso_time (dt_time d) ++ off_text (dt_off d).
Lemma parse_iso_datetime d : valid_dt d -> parse_rfc3339 (dt_text d) = Ok (RDateTime d).
Proof.
  intros (Hd & Ht & Ho). unfold parse_rfc3339, m_datetime, dt_text.
  pose proof (real_day_small _ Hd) as Hsd.
  rewrite (m_date_iso _ _ _ _ (dt_date d) _ f_month f_day Hsd).
  rewrite (small_day31 _ _ _ Hd). cbn [app]. change ((84 =? 84)%N || (84 =? 116)%N || (84 =? chSP)%N) with true. cbv iota.
  pose proof Ht as (H1 & H2 & H3 & H4).
  destruct (m_time_iso re_hour re_min re_sec _ _ _ (dt_time d) (off_text (dt_off d)) f_hour f_min f_sec
             (valid_small_time _ Ht) (off_no_frac _)) as (f & E & Ef); [lia|lia|lia|].
  rewrite E, Ef. destruct (m_tz_iso (dt_off d) Ho) as [Etz _]. rewrite Etz. cbn [re_end]. unfold py_datetime.
  assert (Et : mkTime (t_hour (dt_time d)) (t_min (dt_time d)) (t_sec (dt_time d)) (t_us (dt_time d)) = dt_time d) by (destruct (dt_time d); reflexivity).
  rewrite Et.
  assert (Ey : (2147483647 <? d_year (dt_date d))%N = false) by (unfold small_date in Hsd; lia). rewrite Ey.
  apply valid_time_iff in Ht. apply valid_date_iff in Hd. rewrite Ht, Hd. cbn. destruct d; reflexivity.
Qed.

(** ** RFC_3339_LOOSE *)
Lemma loose_date d : small_date d -> loose_match (iso_date d) = Some (true, false).
Proof.
  intros H. unfold loose_match. rewrite <- (app_nil_r (iso_date d)). rewrite (m_date_iso _ _ _ _ d [] f_dd f_dd H). reflexivity.
Qed.
Lemma loose_time t : small_time t -> loose_match (iso_time t) = Some (false, true).
Proof.
  intros H. unfold loose_match. rewrite <- (app_nil_r (iso_time t)), iso_time_no_date.
  assert (E : m_loose_time (iso_time t ++ []) = true).
  { unfold m_loose_time.
    assert (E1 : match iso_time t ++ [] with
                 | [] => iso_time t ++ []
                 | c :: r => if ((c =? 84) || (c =? 116) || (c =? chSP))%N then r else iso_time t ++ []
                 end = iso_time t ++ []).
    { unfold iso_time at 1. destruct (pad_cons 2 (t_hour t)) as (x & l & E & Ex); [discriminate|]. rewrite E. cbn [app].
      rewrite digit_not_t by exact Ex. reflexivity. }
    rewrite E1.
    destruct (m_time_iso re_dd re_dd re_dd _ _ _ t [] f_dd f_dd f_dd H I) as (f & Em & Ef); [reflexivity..|].
    rewrite Em. reflexivity. }
  rewrite E. reflexivity.
Qed.
Lemma loose_datetime d : valid_dt d -> loose_match (dt_text d) = Some (true, true).
Proof.
  intros (Hd & Ht & Ho). unfold loose_match, dt_text.
  rewrite (m_date_iso _ _ _ _ (dt_date d) _ f_dd f_dd (real_day_small _ Hd)). cbn [andb].
  assert (E : m_loose_time ([84%N] ++ iso_time (dt_time d) ++ off_text (dt_off d)) = true).
  { unfold m_loose_time. cbn [app]. change ((84 =? 84)%N || (84 =? 116)%N || (84 =? chSP)%N) with true. cbv iota.
    destruct (m_time_iso re_dd re_dd re_dd _ _ _ (dt_time d) (off_text (dt_off d)) f_dd f_dd f_dd (valid_small_time _ Ht) (off_no_frac _)) as (f & Em & Ef); [reflexivity..|].
    rewrite Em. destruct (m_tz_iso (dt_off d) Ho) as [Etz _]. rewrite Etz. reflexivity. }
  rewrite E. reflexivity.
Qed.

(** ** Tokens *)
Definition date_char (c : char) : bool :=
  is_ascii_digit c || (c =? chMINUS)%N || (c =? chCOLON)%N || (c =? chDOT)%N || (c =? chPLUS)%N || (c =? 84)%N || (c =? 90)%N.
Definition date_text (s : str) : Prop := Forall (fun c => date_char c = true) s.
Lemma date_text_no_delim s : date_text s -> no_delim s.
Proof.
  unfold date_text, no_delim. apply Forall_impl. intros c. unfold date_char, is_val_delim, is_ascii_digit.
  unfold chMINUS, chCOLON, chDOT, chPLUS, chSP, chTAB, chLF, chCR, chHASH, chCOMMA, chRBR, chRCB. lia.
Qed.
Lemma pad_date_text w n : date_text (dec_pad w n).
Proof. destruct (dec_pad_digits w n) as [H _]. eapply Forall_impl; [|exact H]. intros c E. unfold date_char. rewrite E. reflexivity. Qed.
Lemma date_text_app a b : date_text a -> date_text b -> date_text (a ++ b).
Proof. intros; apply Forall_app; auto. Qed.
Lemma date_text_one c : date_char c = true -> date_text [c].
Proof. repeat constructor. assumption. Qed.
Lemma iso_date_text d : date_text (iso_date d).
Proof. unfold iso_date. repeat (first [apply pad_date_text | apply date_text_one; reflexivity | apply date_text_app]). Qed.
Lemma iso_time_text t : date_text (iso_time t).
Proof.
  unfold iso_time. repeat (first [apply pad_date_text | apply date_text_one; reflexivity | apply date_text_app]).
  destruct (_ =? 0)%N; [constructor|]. constructor; [reflexivity|apply pad_date_text].
Qed.
Lemma iso_off_text o : date_text (iso_off o).
Proof.
  unfold iso_off. destruct o as [z|]; [|constructor].
  constructor; [destruct (z <? 0)%Z; reflexivity|].
  repeat (first [apply pad_date_text | apply date_text_one; reflexivity | apply date_text_app]).
Qed.
Lemma off_text_text o : date_text (off_text o).
Proof. unfold off_text. destruct o as [z|]; [|constructor]. destruct z; try apply iso_off_text. apply date_text_one; reflexivity. Qed.
Lemma dt_text_text d : date_text (dt_text d).
Proof.
  unfold dt_text. apply date_text_app; [apply iso_date_text|]. apply date_text_app; [apply date_text_one; reflexivity|].
  apply date_text_app; [apply iso_time_text|apply off_text_text].
Qed.
Lemma iso_date_head d s : exists c r, iso_date d ++ s = c :: r /\ is_ascii_digit c = true.
Proof. unfold iso_date. destruct (pad_cons 4 (d_year d)) as (x & l & E & Ex); [discriminate|]. rewrite E. cbn [app]. eauto. Qed.
Lemma iso_time_head d s : exists c r, iso_time d ++ s = c :: r /\ is_ascii_digit c = true.
Proof. unfold iso_time. destruct (pad_cons 2 (t_hour d)) as (x & l & E & Ex); [discriminate|]. rewrite E. cbn [app]. eauto. Qed.

Definition date_tail (tail : str) : Prop := match tail with [] => True | c :: _ => is_date_stop c = true end.
Lemma date_tail_delim tail : date_tail tail -> delim_tail tail.
Proof. destruct tail as [|c t]; [auto|]. simpl. unfold is_date_stop. intros H. apply andb_true_iff in H as [H _]. exact H. Qed.

(** Start of a digit value. *)
Lemma digit_start strict n pre s tail mk : date_text s -> delim_tail tail ->
  (exists c r, s ++ [] = c :: r /\ is_ascii_digit c = true) ->
  parse_value strict (S n) (mkSt pre (s ++ tail) mk) =
  parse_digit_value (mkSt pre (s ++ tail) (List.length pre)).
Proof.
  intros Hs Ht (c & r & E & Hc). rewrite app_nil_r in E. subst s. cbn [app]. apply pv_digit. exact Hc.
Qed.

Lemma reads_time t : valid_time_p t -> reads_as (iso_time t) (scalar_item (STime t (iso_time t))) delim_tail.
Proof.
  intros Hv strict n pre mk tail Ht Hn. destruct n as [|n]; [lia|].
  rewrite digit_start; [|apply iso_time_text|exact Ht|apply iso_time_head].
  unfold parse_digit_value. unfold bind at 1, adv_whileM. rewrite adv_token; [|apply date_text_no_delim, iso_time_text|exact Ht].
  unfold bind at 1, extractM. rewrite extract_tok, loose_time by (apply valid_small_time; exact Hv).
  rewrite parse_iso_time by exact Hv. cbn [value_error]. eexists. reflexivity.
Qed.
Lemma reads_datetime d : valid_dt d -> reads_as (dt_text d) (scalar_item (SDateTime d (dt_text d))) delim_tail.
Proof.
  intros Hv strict n pre mk tail Ht Hn. destruct n as [|n]; [lia|].
  rewrite digit_start; [|apply dt_text_text|exact Ht|unfold dt_text; rewrite <- app_assoc; apply iso_date_head].
  unfold parse_digit_value. unfold bind at 1, adv_whileM. rewrite adv_token; [|apply date_text_no_delim, dt_text_text|exact Ht].
  unfold bind at 1, extractM. rewrite extract_tok, loose_datetime by exact Hv.
  rewrite parse_iso_datetime by exact Hv. cbn [value_error]. eexists. reflexivity.
Qed.
Lemma reads_date d : real_day (d_year d) (d_month d) (d_day d) ->
  reads_as (iso_date d) (scalar_item (SDate d (iso_date d))) date_tail.
Proof.
  intros Hv strict n pre mk tail Ht Hn. destruct n as [|n]; [lia|].
  pose proof (real_day_small _ Hv) as Hs.
  rewrite digit_start; [|apply iso_date_text|apply date_tail_delim; exact Ht|apply iso_date_head].
  unfold parse_digit_value. unfold bind at 1, adv_whileM. rewrite adv_token; [|apply date_text_no_delim, iso_date_text|apply date_tail_delim; exact Ht].
  unfold bind at 1, extractM. rewrite extract_tok, loose_date by exact Hs.
  destruct (parse_iso_date d Hs) as [[E _]|[_ E]]; [|contradiction]. rewrite E. cbn [value_error].
  unfold bind at 1, ret. unfold bind at 1, mark, set_mark. cbn [p_pre p_rest].
  unfold bind at 1.
  assert (Ea : adv_while (fun c => negb (is_date_stop c)) (mkSt (pre ++ iso_date d) tail (List.length (pre ++ iso_date d)))
              = mkSt (pre ++ iso_date d) tail (List.length (pre ++ iso_date d))).
  { unfold adv_while. cbn [p_pre p_rest p_mark]. destruct tail as [|c tl]; cbn [take_while drop_while]; [rewrite app_nil_r; reflexivity|].
    simpl in Ht. rewrite Ht. cbn [negb]. rewrite app_nil_r. reflexivity. }
  rewrite Ea. unfold bind at 1.
  assert (Ee : extract (mkSt (pre ++ iso_date d) tail (List.length (pre ++ iso_date d))) = []).
  { unfold extract. cbn [p_mark p_pre]. apply skipn_all. }
  rewrite Ee. eexists. reflexivity.
Qed.

(** The [replace("+00:00", "Z")] of [item] only touches a zero offset. *)
Lemma replace_skip p q a b : (forall c r, a = c :: r -> True) -> Forall (fun c => hd_error p <> Some c) a -> p <> [] ->
  replace_aux p q (a ++ b) 0 = a ++ replace_aux p q b 0.
Proof.
  intros _ H Hp. induction a as [|c a IH]; [reflexivity|]. inversion H; subst. cbn [app replace_aux].
  destruct p as [|x p]; [congruence|]. cbn [startswith].
  destruct (N.eqb_spec x c) as [->|]; [cbn in *; congruence|]. cbn [andb]. f_equal. apply IH. assumption.
Qed.
Definition no_plus (s : str) : Prop := Forall (fun c => hd_error (L "+00:00") <> Some c) s.
Lemma pad_no_plus w n : no_plus (dec_pad w n).
Proof.
  destruct (dec_pad_digits w n) as [H _]. eapply Forall_impl; [|exact H]. intros c E F. inversion F; subst. discriminate.
Qed.
Lemma no_plus_app a b : no_plus a -> no_plus b -> no_plus (a ++ b).
Proof. intros; apply Forall_app; auto. Qed.
Lemma no_plus_one c : c <> chPLUS -> no_plus [c].
Proof. intros H. constructor; [|constructor]. intros F. cbn in F. inversion F as [E]. apply H. rewrite <- E. reflexivity. Qed.
Ltac np := repeat (first [apply pad_no_plus | apply no_plus_one; discriminate | apply no_plus_app]).
Lemma iso_date_np d : no_plus (iso_date d).
Proof. unfold iso_date. np. Qed.
Lemma iso_time_np d : no_plus (iso_time d).
Proof.
  unfold iso_time. np. destruct (_ =? 0)%N; [constructor|].
  change (no_plus ([chDOT] ++ dec_pad 6 (t_us d))). np.
Qed.
Lemma off_replace o : off_ok o -> replace_aux (L "+00:00") (L "Z") (iso_off o) 0 = off_text o.
Proof.
  intros Ho. destruct o as [z|]; [|reflexivity]. unfold off_ok in Ho.
  destruct (Z.eq_dec z 0) as [->|Hz]; [reflexivity|].
  assert (E : off_text (Some z) = iso_off (Some z)) by (destruct z; [congruence|reflexivity|reflexivity]). rewrite E. clear E.
  unfold iso_off. set (rest := dec_pad 2 (Z.abs_N z / 60) ++ [chCOLON] ++ dec_pad 2 (Z.abs_N z mod 60)).
  assert (Hr : no_plus rest) by (unfold rest; np).
  assert (Ht : replace_aux (L "+00:00") (L "Z") rest 0 = rest).
  { rewrite <- (app_nil_r rest) at 1. rewrite replace_skip; [apply app_nil_r|auto|exact Hr|discriminate]. }
  cbn [replace_aux].
  destruct (startswith (L "+00:00") ((if (z <? 0)%Z then chMINUS else chPLUS) :: rest)) eqn:E; [|rewrite Ht; reflexivity].
  exfalso. destruct (Z.ltb_spec z 0); [discriminate|].
  unfold rest in E. cbn [dec_pad app] in E. change (L "+00:00") with [43; 48; 48; 58; 48; 48]%N in E. cbn [startswith] in E.
  rewrite !andb_true_iff, !N.eqb_eq in E. destruct E as (_ & E1 & E2 & _ & E3 & E4 & _).
  set (a := Z.abs_N z) in *.
  assert (Ha : (a < 1440)%N) by lia. assert (Ha0 : (a <> 0)%N) by lia.
  assert (B1 : (a / 60 < 24)%N) by (apply N.div_lt_upper_bound; lia).
  pose proof (N.mod_lt a 60 ltac:(discriminate)) as B2.
  pose proof (N.div_mod a 60 ltac:(discriminate)) as D.
  pose proof (N.div_mod (a / 60) 10 ltac:(discriminate)) as D1.
  pose proof (N.div_mod (a mod 60) 10 ltac:(discriminate)) as D2.
  assert (S1 : ((a / 60 / 10) mod 10 = a / 60 / 10)%N) by (apply N.mod_small; apply N.div_lt_upper_bound; lia).
  assert (S2 : ((a mod 60 / 10) mod 10 = a mod 60 / 10)%N) by (apply N.mod_small; apply N.div_lt_upper_bound; lia).
  rewrite S1 in E1. rewrite S2 in E3. lia.
Qed.
Lemma replace_datetime d : off_ok (dt_off d) ->
  replace (L "+00:00") (L "Z") (iso_datetime d) = dt_text d.
Proof.
  intros Ho. unfold replace, iso_datetime, dt_text.
  rewrite replace_skip; [|auto|apply iso_date_np|discriminate]. f_equal.
  rewrite replace_skip; [|auto|apply no_plus_one; discriminate|discriminate]. f_equal.
  rewrite replace_skip; [|auto|apply iso_time_np|discriminate]. f_equal.
  apply off_replace. exact Ho.
Qed.
