(** Property theorems: dates, times, datetimes (C13, C14, C15).

    Vocabulary: [api_date d] is [tomlkit.item(d)]; [api_date_raw raw] is
    [tomlkit.date(raw)]; [real_day y m d] (Dates.v) is the Gregorian calendar
    with years 1 to 9999, stated on its own; [valid_time_p t] bounds the fields of
    a [datetime.time]; [off_ok o] is the bound of [datetime.timezone]. *)
From Verif Require Import Base Source Utils Items Container Arrays Parser Api Lemmas StringApi Numbers Dates.
Open Scope nat_scope.

(** C13: every calendar day survives writing ([date_tail]: the date is followed by
    a delimiter other than a space, or by the end of the input). *)
Theorem C13_date_roundtrip : forall d : date,
  real_day (d_year d) (d_month d) (d_day d) ->
  date_value (api_date d) = Some d
  /\ value_of (item_string (api_date d)) = Ok (api_date d)
  /\ reads_as (item_string (api_date d)) (api_date d) date_tail.
Proof.
  exact (fun d H => conj eq_refl (conj (reads_value_of (iso_date d) (api_date d) date_tail I (reads_date d H)) (reads_date d H))).
Qed.
Print Assumptions C13_date_roundtrip.
(** [tomlkit.date("yyyy-mm-dd")] accepts exactly the days of the calendar. *)
Theorem C13_date_accepts_exactly_real_days : forall y m d : N,
  (y <= 9999 -> m <= 99 -> d <= 99 ->
   let raw := dec_pad 4 y ++ L "-" ++ dec_pad 2 m ++ L "-" ++ dec_pad 2 d in
   (real_day y m d -> api_date_raw raw = Ok (api_date (mkDate y m d))) /\
   (~ real_day y m d -> api_date_raw raw = Err ValueErrorE))%N.
Proof.
  intros y m d H1 H2 H3 raw.
  destruct (parse_iso_date (mkDate y m d) (conj H1 (conj H2 H3))) as [[E Hr]|[E Hr]];
    (split; intros H; [|]); try contradiction;
    unfold api_date_raw; change raw with (iso_date (mkDate y m d)); rewrite E; reflexivity.
Qed.
Print Assumptions C13_date_accepts_exactly_real_days.
Example C13_example : real_day 2024 2 29 /\ ~ real_day 2023 2 29 /\ ~ real_day 1900 2 29 /\ real_day 2000 2 29
  /\ iso_date (mkDate 33 4 5) = L "0033-04-05".
Proof.
  assert (G : forall y m d, valid_date (mkDate y m d) = true -> real_day y m d)
    by (intros y m d H; apply valid_date_iff in H; exact H).
  assert (B : forall y m d, valid_date (mkDate y m d) = false -> ~ real_day y m d)
    by (intros y m d H F; change (real_day (d_year (mkDate y m d)) (d_month (mkDate y m d)) (d_day (mkDate y m d))) in F;
        apply valid_date_iff in F; congruence).
  split; [apply G; reflexivity|]. split; [apply B; reflexivity|]. split; [apply B; reflexivity|].
  split; [apply G; reflexivity|reflexivity].
Qed.

(** C14: every naive time of day survives writing. *)
Theorem C14_time_roundtrip : forall t : time, valid_time_p t ->
  time_value (api_time t) = Some t
  /\ value_of (item_string (api_time t)) = Ok (api_time t)
  /\ reads_as (item_string (api_time t)) (api_time t) delim_tail
  /\ api_time_raw (item_string (api_time t)) = Ok (api_time t).
Proof.
  intros t H. split; [reflexivity|]. pose proof (reads_time t H) as R.
  split; [exact (reads_value_of _ _ delim_tail I R)|]. split; [exact R|].
  unfold api_time_raw. change (item_string (api_time t)) with (iso_time t). rewrite parse_iso_time by exact H. reflexivity.
Qed.
Print Assumptions C14_time_roundtrip.
Example C14_example : valid_time_p (mkTime 23 5 9 7) /\ iso_time (mkTime 23 5 9 7) = L "23:05:09.000007"
  /\ iso_time (mkTime 0 0 0 0) = L "00:00:00".
Proof. split; [unfold valid_time_p; cbn; lia|]. split; reflexivity. Qed.

(** C15: every datetime, naive or with a whole-minute offset, survives writing. *)
Theorem C15_datetime_roundtrip : forall d : datetime,
  real_day (d_year (dt_date d)) (d_month (dt_date d)) (d_day (dt_date d)) ->
  valid_time_p (dt_time d) -> off_ok (dt_off d) ->
  datetime_value (api_datetime d) = Some d
  /\ value_of (item_string (api_datetime d)) = Ok (api_datetime d)
  /\ reads_as (item_string (api_datetime d)) (api_datetime d) delim_tail
  /\ api_datetime_raw (item_string (api_datetime d)) = Ok (api_datetime d).
Proof.
  intros d H1 H2 H3. pose proof (conj H1 (conj H2 H3) : valid_dt d) as Hv.
  unfold api_datetime. rewrite replace_datetime by exact H3. cbn [item_string scalar_string].
  split; [reflexivity|]. pose proof (reads_datetime d Hv) as R.
  split; [exact (reads_value_of _ _ delim_tail I R)|]. split; [exact R|].
  unfold api_datetime_raw. rewrite parse_iso_datetime by exact Hv. cbn [rbind].
  unfold api_datetime. rewrite replace_datetime by exact H3. reflexivity.
Qed.
Print Assumptions C15_datetime_roundtrip.
Example C15_example :
  item_string (api_datetime (mkDT (mkDate 1979 5 27) (mkTime 7 32 0 999999) (Some (-450)%Z))) = L "1979-05-27T07:32:00.999999-07:30"
  /\ item_string (api_datetime (mkDT (mkDate 1979 5 27) (mkTime 0 0 0 0) (Some 0%Z))) = L "1979-05-27T00:00:00Z"
  /\ off_ok (Some (-450)%Z).
Proof. split; [reflexivity|]. split; [reflexivity|]. unfold off_ok. lia. Qed.
