(** DerivedFacts: what computed items are written as (C47). *)
From Verif Require Import Base Utils Items Api Parser PyVal Numbers Floats Dates Grammar Meaning Denote CompNum CompValue Written Derived.
From Coq Require Import Lia.
Open Scope nat_scope.

Lemma pieces_glue basic q k a x b y : pieces_mean basic false q k a x -> pieces_mean basic false q 0 b y -> pieces_mean basic false q k (a ++ b) (x ++ y).
Proof.
  intros H. revert b y. induction H as [k|k c w m H1 H2 H3 H IH|k u v w m Hb He H IH|k u w m Hb Hm|k w m Hm]; intros b y Hy; try discriminate.
  - cbn [app]. destruct Hy; try discriminate; econstructor; eauto.
  - cbn [app]. apply sm_char; auto.
  - rewrite <- app_assoc. cbn [app]. eapply sm_escape; eauto.
Qed.
Lemma plain_pieces basic q s k : Forall (fun c => c <> q /\ (basic = true -> c <> 92%N) /\ ~ control_c c) s -> pieces_mean basic false q k s s.
Proof. intros H. revert k. induction H as [|c s (H1 & H2 & H3) _ IH]; intros k; constructor; auto. intros X. contradiction. Qed.
(** A one-line text: the quotes and what is between them. *)
Lemma one_line basic t v o tr m : string_means basic false (item_string (IVal (SStr t v o) tr)) m ->
  st_value t = [quote_of basic] /\ pieces_mean basic false (quote_of basic) 0 o m.
Proof.
  intros (n & b & P & _ & E). cbn [item_string scalar_string] in E. assert (Hq : forall r, b <> quote_of basic :: r).
  { intros r ->. inversion P as [|k c w y Hc _ _ _|k u y w z Hb He _| |]; subst; try congruence. destruct He; discriminate. }
  assert (Ht : st_value t = [quote_of basic]).
  { destruct t; cbn [st_value] in *; destruct basic; cbn [quote_of app] in *; try discriminate E; try reflexivity; injection E as E; exfalso; (destruct b as [|x b]; [destruct o; discriminate E|]; cbn [app] in E; injection E as <- E; eapply Hq; reflexivity). }
  split; [exact Ht|]. rewrite Ht in E. cbn [app] in E. injection E as E. apply app_inj_tail in E as [-> _]. exact P.
Qed.
Lemma str_add_ok basic i j m n : string_means basic false (item_string i) m -> string_means basic false (item_string j) n -> str_value i = Some m -> str_value j = Some n ->
  exists k, str_add i j = Some k /\ str_value k = Some (m ++ n) /\ string_means basic false (item_string k) (m ++ n).
Proof.
  intros Hi Hj Vi Vj. destruct i as [ | | |[ | | | | | |t v o] tr| | | | ]; try discriminate Vi. destruct j as [ | | |[ | | | | | |t' v' o'] tr'| | | | ]; try discriminate Vj.
  injection Vi as ->. injection Vj as ->. destruct (one_line _ _ _ _ _ _ Hi) as [Et P]. destruct (one_line _ _ _ _ _ _ Hj) as [_ P'].
  eexists. split; [reflexivity|]. split; [reflexivity|]. exists [], (o ++ o'). split; [apply pieces_glue; assumption|]. split; [reflexivity|]. cbn [item_string scalar_string]. rewrite Et. reflexivity.
Qed.
Lemma str_add_plain_ok basic i m s : string_means basic false (item_string i) m -> str_value i = Some m ->
  Forall (fun c => c <> quote_of basic /\ (basic = true -> c <> 92%N) /\ ~ control_c c) s ->
  exists k, str_add_plain i s = Some k /\ str_value k = Some (m ++ s) /\ string_means basic false (item_string k) (m ++ s).
Proof.
  intros Hi Vi Hs. destruct i as [ | | |[ | | | | | |t v o] tr| | | | ]; try discriminate Vi. injection Vi as ->. destruct (one_line _ _ _ _ _ _ Hi) as [Et P].
  eexists. split; [reflexivity|]. split; [reflexivity|]. exists [], (o ++ s). split; [apply pieces_glue, plain_pieces; assumption|]. split; [reflexivity|]. cbn [item_string scalar_string]. rewrite Et. reflexivity.
Qed.
Definition signed (a : item) : bool := match a with IVal (SFloat _ raw) _ => float_sign raw | IVal (SInt _ raw) _ => int_sign raw | _ => false end.
Definition is_number (a : item) : Prop := match a with IVal (SFloat _ _) _ | IVal (SInt _ _) _ => True | _ => False end.
Definition not_below_zero (f : fval) : Prop := match f with FDec neg _ _ | FInf neg => neg = false | FNan _ => True end.
Lemma float_plus f : not_below_zero f -> exists g, float_means ((if float_nonneg f then [chPLUS] else [chMINUS]) ++ float_text f) g /\ feq f g.
Proof.
  destruct f as [neg m e|neg|neg]; cbn [not_below_zero float_nonneg float_text]; intros H; [subst neg|subst neg|].
  - cbn [negb orb]. destruct (float_digits_shape m e) as (ip & fp & ft & e' & et & -> & H1 & H2 & H3 & H4 & H5 & H6 & H7).
    destruct (expo_means _ _ H5) as [X1 X2]. eexists. split; [|apply (H7 false)].
    assert (Dg : dig 10 (ip ++ fp)) by (apply Forall_app; split; [apply digits_dig, H1|destruct H4; [constructor|apply digits_dig; assumption]]).
    rewrite dvalue_pos by exact Dg. cbn [app]. apply (fm_dec [43%N] false); [exact sgn_plus|apply run_plain; [apply digits_dig, H1|exact H2]|exact H3|apply frac_means, H4|exact X1|exact H6|]. intros (_ & _ & X). exact (X2 X).
  - exists (FInf false). split; [apply (fm_inf [43%N] false sgn_plus)|constructor].
  - exists (FNan true). split; [apply (fm_nan [45%N] true sgn_minus)|constructor].
Qed.
Lemma float_new_ok a f : is_number a -> signed a = false \/ not_below_zero f ->
  exists i g, float_new float_text a f = Some i /\ float_value i = Some f /\ denotes (item_string i) (PFloat g) /\ feq f g.
Proof.
  intros N H. assert (X : exists g, float_means ((if signed a then (if float_nonneg f then [chPLUS] else [chMINUS]) else []) ++ float_text f) g /\ feq f g).
  { destruct (signed a); [destruct H as [H|H]; [discriminate H|]; apply float_plus, H|apply float_written]. }
  destruct X as (g & M & Q). destruct a as [ | | |[z raw|x raw| | | | | ] tr| | | | ]; try destruct N; eexists _, g; (split; [reflexivity|split; [reflexivity|split; [apply dn_float; exact M|exact Q]]]).
Qed.
Lemma iso_written o : off_ok o -> offset_means (iso_off o) o.
Proof.
  intros H. pose proof (off_written o H) as G. destruct o as [z|]; [|exact G]. destruct z; [|exact G|exact G].
  apply (om_some [43%N] false (L "00") (L "00") 0 0 sgn_plus); try discriminate; repeat split; try constructor; try (constructor; [|constructor]); reflexivity.
Qed.
Lemma datetime_iso d : valid_dt d -> datetime_means (iso_datetime d) d.
Proof.
  intros (Hd & Ht & Ho). destruct d as [d t o]. cbn [dt_date dt_time dt_off] in *. unfold iso_datetime. cbn [dt_date dt_time dt_off].
  apply dtm; [apply date_written, Hd|left; reflexivity|apply time_written, Ht|apply iso_written, Ho].
Qed.
Lemma no_sign a : (forall r, item_string a <> 43%N :: r /\ item_string a <> 45%N :: r) -> signed a = false.
Proof.
  intros H. assert (G : forall c r, item_string a = c :: r -> ((c =? chPLUS) || (c =? chMINUS))%N = false).
  { intros c r E. destruct (N.eqb_spec c chPLUS) as [->|_]; [destruct (H r); contradiction|]. destruct (N.eqb_spec c chMINUS) as [->|_]; [destruct (H r); contradiction|reflexivity]. }
  destruct a as [ | | |[z raw|x raw| | | | | ] tr| | | | ]; try reflexivity; cbn [signed item_string scalar_string] in *; destruct raw as [|c [|c2 r]]; try reflexivity.
  - cbn [int_sign]. rewrite (G _ _ eq_refl). reflexivity.
  - cbn [float_sign]. apply (G _ _ eq_refl).
Qed.
