(** Written: the text of a Python value ([vtext], DumpText.v) is a TOML text standing
    for that value (Denote.v).  No reference to the parser. *)
From Verif Require Import Base Source Utils Items Api Lemmas Escape Strings StringRT StringApi Numbers Floats Dates Keys PyVal PyItem ItemConv DumpText DumpValue Grammar Meaning Denote CompNum CompDate.
From Coq Require Import ZifyBool ZifyNat ZifyN Permutation.
Open Scope nat_scope.

Lemma esc_means c : esc_char c = true -> escape_means (esc_seq [c]) c.
Proof.
  intros H. assert (In c (127 :: 92 :: 34 :: map N.of_nat (seq 0 32))%N).
  { unfold esc_char, is_control, chBSL, chDQ in H. cbn [In]. assert (X : (c = 127 \/ c = 92 \/ c = 34 \/ c < 32)%N) by lia. destruct X as [X|[X|[X|X]]]; auto. do 3 right. apply in_map_iff. exists (N.to_nat c). split; [lia|]. apply in_seq. lia. }
  cbn [map seq N.of_nat Pos.of_succ_nat Pos.succ] in H0. cbn [In] in H0. clear H.
  repeat (destruct H0 as [<-|H0]; [match goal with |- escape_means ?w _ => let u := eval vm_compute in w in change w with u end;
    first [apply xm_short; cbn [In short_escapes]; tauto|match goal with |- escape_means (92%N :: 117%N :: ?w) ?v => change v with (positional 16 w); apply xm_u; [reflexivity|repeat (constructor; [reflexivity|]); constructor|left; vm_compute; discriminate] end]|]).
  destruct H0.
Qed.
Lemma slb_means s : forall k, pieces_mean true false 34 k (E1 s) s.
Proof.
  induction s as [|c s IH]; intros k; [apply sm_nil|]. rewrite esc_ref_slb. destruct (esc_char c) eqn:E.
  - apply sm_escape; [reflexivity|apply esc_means, E|apply IH].
  - unfold esc_char, is_control, chBSL, chDQ in E. apply sm_char; [intros ->; discriminate E|intros _ ->; discriminate E| |apply IH]. unfold control_c. lia.
Qed.
Lemma string_written s : string_means true false ([chDQ] ++ E1 s ++ [chDQ]) s.
Proof. exists [], (E1 s). split; [apply slb_means|]. split; reflexivity. Qed.
Lemma key_written k : key_means (key1 k) [k].
Proof.
  apply km_one. unfold key1, skey_of_str. cbn [k_orig]. destruct (bare_ok k) eqn:B.
  - cbn [kt_value app]. rewrite app_nil_r. rewrite <- (app_nil_r k) at 1. apply (nn_bare [] k []); [constructor| | |constructor]; destruct k as [|c k]; try discriminate.
    apply Forall_forall. intros x Hx. cbn [bare_ok] in B. rewrite forallb_forall in B. specialize (B x Hx). unfold is_bare_key_char, is_ascii_letter, is_ascii_digit, chMINUS, chUND in B. unfold bare_c, digit_c. lia.
  - rewrite basic_escapes_slb. change (kt_value KTBasic) with [chDQ]. rewrite <- (app_nil_r ([chDQ] ++ E1 k ++ [chDQ])). apply (nn_quoted [] true ([chDQ] ++ E1 k ++ [chDQ]) [] k); [constructor|apply string_written|constructor].
Qed.
(** * Numbers *)
Lemma run_plain base ds : dig base ds -> ds <> [] -> run base ds ds.
Proof. intros H N. exists [ds]. split; [split; [discriminate|]|split; [cbn; rewrite app_nil_r; reflexivity|reflexivity]]. constructor; [split; assumption|constructor]. Qed.
Lemma int_written z : int_means (dec_Z z) z.
Proof.
  assert (P : forall p, run 10 (dec_N (Npos p)) (dec_N (Npos p)) /\ no_leading_zero (dec_N (Npos p)) /\ positional 10 (dec_N (Npos p)) = Npos p).
  { intros p. destruct (dec_N_spec (Npos p)) as (d & r & -> & Hd & Hp & Hz & _). split; [apply run_plain; [exact Hd|discriminate]|]. split; [left; cbn [hd]; apply Hz; lia|exact Hp]. }
  destruct z as [|p|p]; cbn [dec_Z].
  - exact (im_dec [] false [48%N] [48%N] sgn_none (run_plain 10 [48%N] ltac:(repeat constructor) ltac:(discriminate)) (or_intror eq_refl)).
  - destruct (P p) as (R & Z0 & V). pose proof (im_dec [] false _ _ sgn_none R Z0) as X. rewrite V in X. exact X.
  - destruct (P p) as (R & Z0 & V). pose proof (im_dec [45%N] true _ _ sgn_minus R Z0) as X. rewrite V in X. exact X.
Qed.
Lemma frac_means fp t : frac fp t -> fraction t fp.
Proof. intros [|fp' H N]; [constructor|]. apply (fc_some fp' fp'). apply run_plain; [apply digits_dig, H|exact N]. Qed.
Lemma expo_means e t : expo e t -> exponent t e /\ hd 0%N t <> 69%N.
Proof.
  intros H. assert (G : forall s neg ed, sign_says s neg -> digits ed -> ed <> [] -> exponent ([101%N] ++ s ++ ed) ((if neg then -1 else 1) * Z.of_N (dvalue ed))%Z).
  { intros s neg ed Hs Hd N. rewrite dvalue_pos by (apply digits_dig, Hd). apply xp_some; [left; reflexivity|exact Hs|]. apply run_plain; [apply digits_dig, Hd|exact N]. }
  destruct H as [|ed Hd N|ed Hd N|ed Hd N]; (split; [|discriminate]).
  - constructor.
  - replace (Z.of_N (dvalue ed)) with (1 * Z.of_N (dvalue ed))%Z by lia. exact (G [] false ed sgn_none Hd N).
  - replace (Z.of_N (dvalue ed)) with (1 * Z.of_N (dvalue ed))%Z by lia. exact (G [43%N] false ed sgn_plus Hd N).
  - replace (- Z.of_N (dvalue ed))%Z with ((-1) * Z.of_N (dvalue ed))%Z by lia. exact (G [45%N] true ed sgn_minus Hd N).
Qed.
Lemma float_written f : exists g, float_means (float_text f) g /\ feq f g.
Proof.
  destruct f as [neg m e|neg|neg]; cbn [float_text].
  - destruct (float_digits_shape m e) as (ip & fp & ft & e' & et & -> & H1 & H2 & H3 & H4 & H5 & H6 & H7). destruct (expo_means _ _ H5) as [X1 X2]. eexists. split; [|apply H7].
    assert (Dg : dig 10 (ip ++ fp)) by (apply Forall_app; split; [apply digits_dig, H1|destruct H4; [constructor|apply digits_dig; assumption]]).
    rewrite dvalue_pos by exact Dg. apply fm_dec; [destruct neg; constructor|apply run_plain; [apply digits_dig, H1|exact H2]|exact H3|apply frac_means, H4|exact X1|exact H6|]. intros (_ & _ & X). exact (X2 X).
  - exists (FInf neg). split; [|constructor]. destruct neg; [exact (fm_inf [45%N] true sgn_minus)|exact (fm_inf [] false sgn_none)].
  - exists (FNan false). split; [|constructor]. exact (fm_nan [] false sgn_none).
Qed.
(** * Dates and times *)
Lemma pad_field k n : (n < 10 ^ N.of_nat k)%N -> field k (dec_pad k n) n.
Proof.
  intros H. destruct (dec_pad_digits k n) as [D1 D2]. assert (D : dig 10 (dec_pad k n)) by (apply digits_dig; exact D1). split; [exact D2|]. split; [exact D|]. rewrite <- dec_value_pos by exact D. symmetry. apply dec_value_pad, H.
Qed.
Lemma date_written d : real_day (d_year d) (d_month d) (d_day d) -> date_means (iso_date d) d.
Proof.
  intros H. pose proof (real_day_small d H) as B. unfold small_date in B. destruct d as [y m d]. cbn [d_year d_month d_day] in *. unfold iso_date. cbn [d_year d_month d_day].
  apply (dm (dec_pad 4 y) (dec_pad 2 m) (dec_pad 2 d)); [apply pad_field; change (10 ^ N.of_nat 4)%N with 10000%N; lia|apply pad_field; change (10 ^ N.of_nat 2)%N with 100%N; lia..|exact H].
Qed.
Lemma time_written t : valid_time_p t -> time_means (iso_time t) t.
Proof.
  destruct t as [h m s u]. unfold valid_time_p, iso_time. cbn [t_hour t_min t_sec t_us]. intros (H1 & H2 & H3 & H4).
  apply (tm (dec_pad 2 h) (dec_pad 2 m) (dec_pad 2 s)); try (apply pad_field; change (10 ^ N.of_nat 2)%N with 100%N; lia); try assumption.
  destruct (N.eqb_spec u 0) as [->|E]; [constructor|]. destruct (dec_pad_digits 6 u) as [D1 D2]. assert (D : dig 10 (dec_pad 6 u)) by (apply digits_dig; exact D1).
  assert (X : u = positional 10 (firstn 6 (dec_pad 6 u ++ L "000000"))).
  { rewrite <- D2 at 1. rewrite firstn_length_app. rewrite <- dec_value_pos by exact D. symmetry. apply dec_value_pad. change (10 ^ N.of_nat 6)%N with 1000000%N. lia. }
  rewrite X at 2. apply (sf_some (dec_pad 6 u)); [intros Y; rewrite Y in D2; discriminate|exact D].
Qed.
Lemma off_written o : off_ok o -> offset_means (off_text o) o.
Proof.
  destruct o as [z|]; [|constructor]. intros H. unfold off_ok in H. unfold off_text.
  assert (G : offset_means (iso_off (Some z)) (Some z)).
  { unfold iso_off. cbv zeta. set (a := Z.abs_N z). assert (Ha : (a < 1440)%N) by lia.
    assert (Hh : (a / 60 <= 23)%N) by (assert (a / 60 < 24)%N by (apply N.div_lt_upper_bound; lia); lia).
    assert (Hm : (a mod 60 <= 59)%N) by (pose proof (N.mod_lt a 60); lia). pose proof (N.div_mod a 60 ltac:(discriminate)) as Hd.
    assert (F : forall n, (n < 60)%N -> field 2 (dec_pad 2 n) n) by (intros n Hn; apply pad_field; change (10 ^ N.of_nat 2)%N with 100%N; lia).
    destruct (Z.ltb_spec z 0).
    - pose proof (om_some [45%N] true _ _ _ _ sgn_minus ltac:(discriminate) (F (a / 60)%N ltac:(lia)) (F (a mod 60)%N ltac:(lia)) Hh Hm) as X.
      cbv iota in X. assert (Ez : (-1 * Z.of_N (a / 60 * 60 + a mod 60))%Z = z) by lia. rewrite Ez in X. exact X.
    - pose proof (om_some [43%N] false _ _ _ _ sgn_plus ltac:(discriminate) (F (a / 60)%N ltac:(lia)) (F (a mod 60)%N ltac:(lia)) Hh Hm) as X.
      cbv iota in X. assert (Ez : (1 * Z.of_N (a / 60 * 60 + a mod 60))%Z = z) by lia. rewrite Ez in X. exact X. }
  destruct z; [apply om_zulu; left; reflexivity|exact G|exact G].
Qed.
Lemma datetime_written d : valid_dt d -> datetime_means (dt_text d) d.
Proof.
  intros (Hd & Ht & Ho). destruct d as [d t o]. cbn [dt_date dt_time dt_off] in *. unfold dt_text. cbn [dt_date dt_time dt_off].
  apply dtm; [apply date_written, Hd|left; reflexivity|apply time_written, Ht|apply off_written, Ho].
Qed.
(** * Arrays and inline tables *)
Definition means_v (w : str) (v : pyv) : Prop := exists v', denotes w v' /\ pyeq v v'.
Lemma commas_written ws vs : Forall2 means_v ws vs -> exists vs', Denote.elements false (join (L ", ") ws) vs' /\ Forall2 pyeq vs vs'.
Proof.
  assert (G0 : Grammar.gap []) by (apply gap_ws; constructor).
  assert (G1 : Grammar.gap (L " ")) by (apply gap_ws; constructor; [left; left; reflexivity|constructor]).
  intros F. destruct F as [|w v ws vs (v' & D & Q) F]; [exists []; split; [apply em_end, G0|constructor]|].
  rewrite join_cons.
  assert (X : exists l, Denote.elements true (flat_map (fun x => L ", " ++ x) ws) l /\ Forall2 pyeq vs l).
  { clear - F G0 G1. induction F as [|w v ws vs (v' & D & Q) F (l & E & Fl)]; [exists []; split; [apply em_end, G0|constructor]|].
    exists (v' :: l). split; [|constructor; assumption]. cbn [flat_map]. rewrite <- app_assoc. apply (em_comma [] (L " " ++ w ++ _)); [exact G0|]. apply em_value; assumption. }
  destruct X as (l & E & Fl). exists (v' :: l). split; [|constructor; assumption]. apply (em_value [] w); assumption.
Qed.
Definition values (r : list (str * pyv)) : list (str * node) := map (fun kv => (fst kv, Value (snd kv))) r.
Lemma values_dict r : dict_of (values r) = r.
Proof. unfold dict_of, values. rewrite map_map. rewrite <- (map_id r) at 2. apply map_ext. intros []. reflexivity. Qed.
Lemma values_fst r : map fst (values r) = map fst r.
Proof. unfold values. rewrite map_map. reflexivity. Qed.
Lemma fields_written sp es : blanks sp -> Forall (fun kv => means_v (vtext false (snd kv)) (snd kv)) es ->
  forall b e r0, blanks b -> means_v (vtext false (snd e)) (snd e) -> NoDup (map fst r0 ++ map fst (e :: es)) ->
  exists r, fields (values r0) (b ++ etext e ++ flat_map (fun e => (chCOMMA :: sp) ++ etext e) es) (values (r0 ++ r)) /\ Forall2 kveq (e :: es) r.
Proof.
  assert (B0 : blanks []) by constructor.
  assert (Hs : sep_text (L " = ")) by (exists (L " "), (L " "); split; [reflexivity|split; (apply Forall_cons; [left; reflexivity|constructor])]).
  assert (Pu : forall r0 (k : str) v (l : list str), NoDup (map fst r0 ++ k :: l) -> put [k] v (values r0) (values (r0 ++ [(k, v)]))).
  { intros r0 k v l Nd. unfold values at 2. rewrite map_app. apply put_value. rewrite values_fst. intros X. apply NoDup_remove_2 in Nd. apply Nd, in_or_app. auto. }
  intros Hsp F. induction F as [|e2 es D2 F IH]; intros b [k v] r0 Hb (v' & D & Q) Nd; unfold etext at 1; cbn [fst snd map] in *.
  - exists [(k, v')]. split; [|constructor; [split; [reflexivity|exact Q]|constructor]]. cbn [flat_map]. rewrite app_nil_r, <- (app_nil_r (vtext false v)).
    apply (fd_last b (key1 k) [k] (L " = ") (vtext false v) v' []); [exact Hb|apply key_written|exact Hs|exact D|exact B0|eapply Pu; exact Nd].
  - destruct (IH sp e2 (r0 ++ [(k, v')]) Hsp D2) as (r & Fr & Qr). { rewrite map_app, <- app_assoc. exact Nd. }
    exists ((k, v') :: r). split; [|constructor; [split; [reflexivity|exact Q]|exact Qr]]. rewrite <- app_assoc in Fr.
    pose proof (fd_more b (key1 k) [k] (L " = ") (vtext false v) v' [] _ _ _ _ Hb (key_written k) Hs D B0 (Pu r0 k v' _ Nd) Fr) as X.
    cbn [flat_map]. rewrite app_nil_r in X. rewrite <- ?app_assoc in X. rewrite <- ?app_assoc. exact X.
Qed.
Lemma inline_written sp es kvs : blanks sp -> NoDup (map fst es) -> Forall (fun kv => means_v (vtext false (snd kv)) (snd kv)) es -> Permutation kvs es ->
  means_v ([chLCB] ++ join (chCOMMA :: sp) (map etext es) ++ [chRCB]) (PDict kvs).
Proof.
  intros Hsp Nd F Pm. destruct es as [|e es].
  - exists (PDict []). split; [apply (dn_empty []); constructor|]. eapply pe_dict; [exact Pm|constructor].
  - apply Forall_cons_iff in F as [D F]. destruct (fields_written sp es Hsp F [] e [] (Forall_nil _) D Nd) as (r & Fr & Q). cbn [app] in Fr.
    cbn [map]. rewrite join_cons, flat_map_concat_map, map_map, <- flat_map_concat_map. exists (PDict r). split; [|eapply pe_dict; [exact Pm|exact Q]].
    rewrite <- (values_dict r). apply dn_inline. exact Fr.
Qed.
Lemma value_written v : py_fine v -> forall nw, means_v (vtext nw v) v.
Proof.
  induction v as [s|z|b|f|d|t|d|l IH|l IH] using pyv_rect2; intros H nw; cbn [vtext].
  - rewrite esc_slb. exists (PStr s). split; [exact (dn_string true false _ s (string_written s))|apply pe_refl].
  - exists (PInt z). split; [apply dn_int, int_written|apply pe_refl].
  - exists (PBool b). split; [destruct b; constructor|apply pe_refl].
  - destruct (float_written f) as (g & M & Q). exists (PFloat g). split; [apply dn_float, M|apply pe_float, Q].
  - inversion H as [? B| |]; subst. exists (PDate d). split; [apply dn_date, date_written, B|apply pe_refl].
  - inversion H as [? B| |]; subst. exists (PTime t). split; [apply dn_time, time_written, B|apply pe_refl].
  - inversion H as [? B| |]; subst. destruct B as (B1 & B2 & B3). exists (PDateTime d). split; [|apply pe_refl]. rewrite replace_datetime by exact B3. apply dn_datetime, datetime_written. split; [exact B1|split; [exact B2|exact B3]].
  - inversion H as [? B|? Fl|]; subst; [destruct B|]. clear H.
    assert (F : Forall2 means_v (map (vtext true) l) l). { induction IH as [|v l Hv _ IH']; [constructor|]. apply Forall_cons_iff in Fl as [? ?]. cbn [map]. constructor; auto. }
    destruct (commas_written _ _ F) as (r & E & Q). exists (PList r). split; [apply dn_array, E|apply pe_list, Q].
  - inversion H as [? B| |? Nd Fl]; subst; [destruct B|]. clear H.
    assert (Re : Forall (fun kv => means_v (vtext false (snd kv)) (snd kv)) l). { rewrite Forall_forall in IH, Fl |- *. intros kv Hx. apply IH; auto. }
    set (es := map (fun kv : str * pyv => let (k, x) := kv in (is_dict x, key1 k ++ L " = " ++ vtext false x)) l).
    assert (Ees : es = map (fun kv => (is_dict (snd kv), etext kv)) l) by (apply map_ext; intros [k x]; reflexivity). rewrite Ees. clear es Ees.
    destruct nw.
    + rewrite dicts_last_map. pose proof (filter_split (fun kv : str * pyv => is_dict (snd kv)) l) as Pm. apply (inline_written [chSP]); [apply Forall_cons; [left; reflexivity|constructor]| | |exact Pm].
      * eapply perm_nodup; [exact Pm|exact Nd].
      * eapply Permutation_Forall; [exact Pm|exact Re].
    + rewrite map_map. cbn [snd]. apply (inline_written []); [constructor|exact Nd|exact Re|apply Permutation_refl].
Qed.
