(** FuelParse: the parser never runs out of the fuel it is given (C02). *)
From Verif Require Import Base Source Utils Items Container Arrays Parser Lemmas Escape Strings StringRT StringApi Numbers Reader Linecol Wf Errors Fuel.
From Coq Require Import ZifyBool ZifyNat ZifyN.
Open Scope nat_scope.

Definition len (st : pst) : nat := List.length (p_rest st).
(** Started with fewer than [r] characters left, [m] does not run out of fuel. *)
Definition nf {A} (r : nat) (m : M A) : Prop := forall st, len st < r -> fst (m st) <> Err FuelE.
(** When it succeeds, [m] consumes at least one character. *)
Definition prog {A} (m : M A) : Prop := forall st a st', m st = (Ok a, st') -> len st' < len st.

Lemma good_len {A} (m : M A) st : good m -> len (snd (m st)) <= len st.
Proof. intros H. destruct (H st) as [w [Hw _]]. unfold len. rewrite Hw, app_length. lia. Qed.
Lemma nf_bind {A B} r (m : M A) (f : A -> M B) : good m -> nf r m -> (forall a, nf r (f a)) -> nf r (bind m f).
Proof.
  intros G H K st Hl. unfold bind. specialize (H st Hl). pose proof (good_len m st G) as Hg.
  destruct (m st) as [[a|e] st']; cbn [fst snd] in *; [|congruence]. apply K. lia.
Qed.
Lemma nf_bind_prog {A B} r (m : M A) (f : A -> M B) : prog m -> nf r m -> (forall a, nf (pred r) (f a)) -> nf r (bind m f).
Proof.
  intros G H K st Hl. unfold bind. specialize (H st Hl). specialize (G st).
  destruct (m st) as [[a|e] st']; cbn [fst snd] in *; [|congruence]. apply K. specialize (G a st' eq_refl). lia.
Qed.
Lemma nf_le {A} r r' (m : M A) : r' <= r -> nf r m -> nf r' m.
Proof. intros H K st Hl. apply K. lia. Qed.
Lemma nf_0 {A} (m : M A) : nf 0 m.
Proof. intros st H. lia. Qed.
Lemma nf_restore {A} r (m : M A) : nf r m -> nf r (restore_on_err m).
Proof. intros H st Hl. specialize (H st Hl). unfold restore_on_err. destruct (m st) as [[] ?]; cbn in *; congruence. Qed.
Lemma nf_restoring_all {A} r (m : M A) : nf r m -> nf r (restoring_all m).
Proof. intros H st Hl. specialize (H st Hl). unfold restoring_all. destruct (m st) as [[] ?]; cbn in *; congruence. Qed.
Lemma nf_restoring {A} r (m : M A) : nf r m -> nf r (restoring m).
Proof. intros H st Hl. specialize (H st Hl). unfold restoring. destruct (m st) as [[] ?]; cbn in *; congruence. Qed.
Lemma nf_ret {A} r (a : A) : nf r (ret a). Proof. intros st _. discriminate. Qed.
Lemma nf_raise {A} r k : nf r (@raise A k).
Proof. intros st _. unfold raise, parse_error. destruct (to_linecol _ _). discriminate. Qed.
Lemma nf_raise_exn {A} r e : e <> FuelE -> nf r (@raise_exn A e).
Proof. intros H st _. cbn. congruence. Qed.
Lemma nf_lift {A} r (x : res A) : x <> Err FuelE -> nf r (lift x).
Proof. intros H st _. exact H. Qed.
Lemma nf_mark r : nf r mark. Proof. intros st _. discriminate. Qed.
Lemma nf_extract r : nf r extractM. Proof. intros st _. discriminate. Qed.
Lemma nf_current r : nf r current. Proof. intros st _. discriminate. Qed.
Lemma nf_end r : nf r endM. Proof. intros st _. discriminate. Qed.
Lemma nf_get r : nf r get. Proof. intros st _. discriminate. Qed.
Lemma nf_adv r p : nf r (adv_whileM p). Proof. intros st _. discriminate. Qed.
Lemma nf_since r a : nf r (since a). Proof. intros st _. discriminate. Qed.
Lemma nf_idx r : nf r idxM. Proof. intros st _. discriminate. Qed.
Lemma nf_peek r n : nf r (peek n). Proof. intros st _. discriminate. Qed.
Lemma nf_inc r : nf r incM. Proof. intros st _. unfold incM. destruct (inc st). discriminate. Qed.
Lemma nf_incn r n : nf r (inc_nM n). Proof. intros st _. unfold inc_nM. destruct (inc_n n st). discriminate. Qed.
Lemma nf_inc_exn r k : nf r (inc_exn k).
Proof. intros st Hl. unfold inc_exn. destruct (inc st) as [[] st']; [discriminate|]. unfold parse_error. destruct (to_linecol _ _). discriminate. Qed.
Lemma nf_consume r c : nf r (consume1 c).
Proof. intros st Hl. unfold consume1. destruct (_ =? _)%N; [discriminate|]. unfold parse_error. destruct (to_linecol _ _). discriminate. Qed.
Lemma nf_lossy r b n : nf r (lossy_if b n). Proof. intros st _. unfold lossy_if. destruct b; discriminate. Qed.
Lemma nf_value_error r k w : nf r (value_error k (parse_rfc3339 w)).
Proof.
  destruct (parse_rfc3339 w) as [a|e] eqn:E; cbn [value_error]; [apply nf_ret|]. apply rfc_err in E as [->|[-> _]]; [apply nf_raise|].
  apply nf_raise_exn. discriminate.
Qed.
Global Hint Resolve nf_ret nf_raise nf_mark nf_extract nf_current nf_end nf_get nf_adv nf_since nf_idx nf_peek nf_inc nf_incn nf_inc_exn
  nf_consume nf_lossy nf_value_error : nf.
Ltac nf :=
  repeat (first [ solve [auto with nf]
                | apply nf_bind; [solve [good]| |intros ?]
                | apply nf_restore
                | apply nf_restoring
                | apply nf_restoring_all
                | match goal with |- nf _ (match ?x with _ => _ end) => destruct x end
                | match goal with |- nf _ (let _ := _ in _) => cbv zeta end
                | progress cbv zeta ]).

(** ** Progress *)
Lemma prog_bind_l {A B} (m : M A) (f : A -> M B) : prog m -> (forall a, good (f a)) -> prog (bind m f).
Proof.
  intros H G st b st' E. apply bind_inv in E as (a & st1 & E1 & E). apply H in E1. pose proof (good_len (f a) st1 (G a)). rewrite E in H0. cbn in H0. lia.
Qed.
Lemma prog_bind_r {A B} (m : M A) (f : A -> M B) : good m -> (forall a, prog (f a)) -> prog (bind m f).
Proof.
  intros G H st b st' E. apply bind_inv in E as (a & st1 & E1 & E). apply H in E. pose proof (good_len m st G). rewrite E1 in H0. cbn in H0. lia.
Qed.
Lemma prog_raise {A} k : prog (@raise A k). Proof. intros st a st' E. discriminate. Qed.
Lemma prog_raise_exn {A} e : prog (@raise_exn A e). Proof. intros st a st' E. discriminate. Qed.
Lemma prog_inc_exn k : prog (inc_exn k).
Proof. intros st a st' E. unfold inc_exn, inc in E. destruct (p_rest st) as [|c [|d r]] eqn:Er; try discriminate. inversion E; subst. unfold len. rewrite Er. cbn. lia. Qed.
Lemma prog_restore {A} (m : M A) : prog m -> prog (restore_on_err m).
Proof. intros H st a st' E. unfold restore_on_err in E. specialize (H st). destruct (m st) as [[b|e] st1]; [|discriminate]. inversion E; subst. eauto. Qed.
Lemma prog_parse_string n d : prog (parse_string n d).
Proof.
  unfold parse_string. apply prog_bind_r; [good|]. intros c. destruct (negb _); [apply prog_raise|]. apply prog_bind_l; [apply prog_inc_exn|]. intros _. good.
Qed.
Lemma prog_bool b : prog (parse_bool b).
Proof.
  intros st a st' E. apply bool_inv in E as [_ [E _]]. unfold len. rewrite E, app_length. destruct b; cbn; lia.
Qed.
Lemma drop_while_len p s : List.length (drop_while p s) <= List.length s.
Proof. induction s as [|c s IH]; cbn; [lia|]. destruct (p c); cbn; lia. Qed.
Lemma adv_prog p st : p (cur st) = true -> at_end st = false -> len (adv_while p st) < len st.
Proof.
  intros H E. unfold len, adv_while, cur in *. unfold at_end in E. destruct (p_rest st) as [|c r] eqn:Er; [discriminate|]. cbn [p_rest hd] in *.
  cbn [drop_while]. rewrite H. cbn. pose proof (drop_while_len p r). lia.
Qed.
Lemma cur_end st : cur st <> chNUL -> at_end st = false.
Proof. unfold cur, at_end. destruct (p_rest st); congruence. Qed.
Lemma len_good {A} (m : M A) st a st' : good m -> m st = (Ok a, st') -> len st' <= len st.
Proof. intros G E. pose proof (good_len m st G). rewrite E in H. exact H. Qed.
Lemma prog_values n : forall s, prog (parse_value s n).
Proof.
  intros s. destruct n as [|n]; [apply prog_raise_exn|]. cbn [parse_value]. apply prog_bind_r; [good|]. intros _ st a st' E.
  apply bind_inv in E as (c & st1 & E1 & E). inversion E1; subst; clear E1.
  revert E. destruct (N.eqb_spec (cur st1) chDQ).
  { intros E. refine (prog_bind_l _ _ _ _ st1 a st' E); [apply prog_restore, prog_parse_string|intros; good]. }
  destruct (N.eqb_spec (cur st1) chSQ).
  { intros E. refine (prog_bind_l _ _ _ _ st1 a st' E); [apply prog_restore, prog_parse_string|intros; good]. }
  destruct (N.eqb_spec (cur st1) 116); [intros E; exact (prog_bool _ _ _ _ E)|].
  destruct (N.eqb_spec (cur st1) 102); [intros E; exact (prog_bool _ _ _ _ E)|].
  pose proof (good_values n s) as (_ & GA & GI).
  destruct (N.eqb_spec (cur st1) chLBR).
  { intros E. refine (prog_bind_l _ _ _ _ st1 a st' E); [apply prog_inc_exn|intros; apply GA]. }
  destruct (N.eqb_spec (cur st1) chLCB).
  { intros E. refine (prog_bind_l _ _ _ _ st1 a st' E); [apply prog_inc_exn|intros; apply GI]. }
  intros E. apply bind_inv in E as (p & st2 & E2 & E). inversion E2; subst; clear E2.
  assert (X : is_val_delim (cur st2) = false /\ cur st2 <> chNUL -> len (adv_while (fun c => negb (is_val_delim c)) st2) < len st2).
  { intros [X Y]. apply adv_prog; [rewrite X; reflexivity|apply cur_end, Y]. }
  destruct ((cur st2 =? chPLUS) || (cur st2 =? chMINUS) || existsb _ _)%N%bool eqn:Es.
  - unfold parse_signed_value in E. apply bind_inv in E as (u & st3 & E3 & E). inversion E3; subst; clear E3.
    apply len_good in E; [|good]. eapply Nat.le_lt_trans; [exact E|apply X].
    apply orb_true_iff in Es as [Es|Es].
    + apply orb_true_iff in Es as [Es|Es]; apply N.eqb_eq in Es; rewrite Es; split; [reflexivity|discriminate|reflexivity|discriminate].
    + unfold cur. destruct (p_rest st2) as [|c r]; [discriminate|]. cbn [hd]. 
      cbn [peek_loop] in Es. destruct (is_val_delim c || (c =? chNUL))%N%bool eqn:Ec; [discriminate|]. apply orb_false_iff in Ec as [E1 E2].
      split; [exact E1|]. apply N.eqb_neq, E2.
  - destruct (is_ascii_digit (cur st2)) eqn:Ed; [|discriminate].
    unfold parse_digit_value in E. apply bind_inv in E as (u & st3 & E3 & E). inversion E3; subst; clear E3.
    apply len_good in E; [|good]. eapply Nat.le_lt_trans; [exact E|apply X].
    unfold is_ascii_digit in Ed. apply andb_true_iff in Ed as [D1 D2]. apply N.leb_le in D1, D2. split.
    + unfold is_val_delim, chSP, chTAB, chLF, chCR, chHASH, chCOMMA, chRBR, chRCB. clear - D1 D2.
      repeat (apply orb_false_iff; split); apply N.eqb_neq; lia.
    + unfold chNUL. lia.
Qed.
Lemma inc_len st : at_end st = false -> len (snd (inc st)) < len st.
Proof. unfold at_end, inc, len. destruct (p_rest st); [discriminate|]. cbn. lia. Qed.
Lemma inc_n_len n st : at_end st = false -> len (snd (inc_n (S n) st)) < len st.
Proof.
  intros H. apply inc_len in H. cbn [inc_n]. destruct (inc st) as [b st1]. cbn [snd] in H. destruct b; [|exact H].
  destruct (inc_n_moves n st1) as [w [Hw _]]. unfold len in *. rewrite Hw, app_length in H. lia.
Qed.
Lemma ws_end st : is_ws (cur st) = true -> at_end st = false.
Proof. intros H. apply cur_end. intros E. rewrite E in H. discriminate. Qed.
Lemma prog_escaped b : prog (parse_escaped_char b).
Proof.
  intros st a st' E. unfold parse_escaped_char in E. apply bind_inv in E as (c & st1 & E1 & E). inversion E1; subst; clear E1.
  destruct (b && is_ws (cur st1)) eqn:Ew.
  - apply andb_true_iff in Ew as [_ Ew]. apply bind_inv in E as (tmp & st2 & E2 & E). apply len_good in E; [|good].
    eapply Nat.le_lt_trans; [exact E|]. unfold skip_ws_exn in E2. destruct (_ && _); [discriminate|]. inversion E2; subst.
    apply adv_prog; [exact Ew|apply ws_end, Ew].
  - destruct (escaped_value (cur st1)); [revert E; apply (prog_bind_l _ _ (prog_inc_exn _)); intros; good|].
    destruct ((cur st1 =? 117) || (cur st1 =? 85))%N%bool eqn:Eu; [|discriminate].
    apply bind_inv in E as (u & st2 & E2 & E). unfold peek_unicode, restoring_all in E2.
    match type of E2 with (let '(r, _) := ?m st1 in _) = _ => destruct (m st1) as [r0 st0] end. inversion E2; subst st2.
    destruct u as [[v ex]|]; [|discriminate]. apply bind_inv in E as (u & st2 & E3 & E). inversion E; subst; clear E.
    unfold inc_nM in E3. pose proof (inc_n_len (List.length ex) st1) as L. destruct (inc_n _ st1) as [b0 st3]. inversion E3; subst. apply L.
    apply cur_end. intros X. rewrite X in Eu. discriminate.
Qed.
Lemma nf_peek_unicode r b : nf r (peek_unicode b).
Proof. unfold peek_unicode. nf. Qed.
Lemma nf_skip_ws r : nf r skip_ws_exn.
Proof. intros st _. unfold skip_ws_exn. destruct (_ && _); [|discriminate]. unfold parse_error. destruct (to_linecol _ _). discriminate. Qed.
Global Hint Resolve nf_peek_unicode nf_skip_ws : nf.
Lemma nf_escaped r b : nf r (parse_escaped_char b).
Proof. unfold parse_escaped_char. nf. Qed.
Lemma nf_string_loop n : forall r d v e, r <= n -> nf r (string_loop n d v e).
Proof.
  induction n as [|n IH]; intros r d v e Hr; [replace r with 0 by lia; apply nf_0|].
  cbn [string_loop]. intros st Hl. unfold bind at 1, current.
  destruct (negb e && bad_string_char (st_multiline d) (cur st)); [apply (nf_raise r); exact Hl|].
  destruct (negb e && (cur st =? st_unit d)%N) eqn:Eu.
  { apply andb_true_iff in Eu as [_ Eu]. apply N.eqb_eq in Eu. unfold bind at 1, extractM. destruct (st_multiline d).
    - unfold bind at 1, get. cbv zeta. unfold bind at 1, adv_whileM.
      set (p := fun x => (x =? st_unit d)%N). assert (Hp : len (adv_while p st) < len st).
      { apply adv_prog; [unfold p; rewrite Eu; apply N.eqb_refl|]. apply cur_end. rewrite Eu. destruct d; discriminate. }
      destruct (Nat.ltb _ 3); [apply (IH (pred r)); lia|].
      destruct (Nat.eqb _ 3); [discriminate|]. destruct (Nat.leb _ _); [|discriminate]. 
      match goal with |- fst (?m ?s) <> _ => assert (G : nf r m) by nf; apply G; lia end.
    - match goal with |- fst (?m ?s) <> _ => assert (G : nf r m) by nf; apply G; lia end. }
  destruct (st_basic d && e).
  { match goal with |- fst (?m ?s) <> _ => assert (G : nf r m) end; [|apply G; lia].
    apply nf_bind_prog; [apply prog_escaped|apply nf_escaped|]. intros x. apply IH. lia. }
  destruct (st_basic d && (cur st =? chBSL)%N);
  (match goal with |- fst (?m ?s) <> _ => assert (G : nf r m) end; [|apply G; lia];
    apply nf_bind_prog; [apply prog_inc_exn|apply nf_inc_exn|]; intros x; apply IH; lia).
Qed.
Lemma nf_inc_n_exn r n k : nf r (inc_n_exn n k).
Proof. induction n as [|n IH]; cbn [inc_n_exn]; nf. Qed.
Global Hint Resolve nf_inc_n_exn : nf.
Lemma nf_skip_nl r : nf r skip_first_newline.
Proof. unfold skip_first_newline. nf. Qed.
Lemma nf_parse_string n d r : r <= n -> nf r (parse_string n d).
Proof.
  intros Hr. unfold parse_string. assert (H := fun d v e => nf_string_loop n r d v e Hr). pose proof (nf_skip_nl r). nf.
Qed.
(** [current], then a test for a given character, then a step forward. *)
Lemma nf_cur {A} r (f : char -> M A) : (forall c st, len st < r -> cur st = c -> fst (f c st) <> Err FuelE) -> nf r (bind current f).
Proof. intros H st Hl. unfold bind, current. apply H; auto. Qed.
Lemma nf_inc_at {A} r (f : bool -> M A) st c : cur st = c -> c <> chNUL -> len st < r -> (forall b, nf (pred r) (f b)) -> fst (bind incM f st) <> Err FuelE.
Proof.
  intros Hc Hn Hl H. unfold bind, incM. pose proof (inc_len st) as L. destruct (inc st) as [b st1]. apply H. cbn [snd] in L.
  specialize (L (cur_end st ltac:(congruence))). lia.
Qed.
Lemma nf_parse_key n : forall r, r + 1 <= n -> nf r (parse_key n).
Proof.
  induction n as [|n IH]; intros r Hr; [lia|].
  cbn [parse_key]. assert (H1 := fun d => nf_parse_string n d r ltac:(lia)).
  apply nf_bind; [good|nf|]. intros _. apply nf_bind; [good|nf|]. intros _. apply nf_bind; [good|nf|]. intros c.
  apply nf_bind; [good|nf|]. intros k. apply nf_cur. intros c2 st Hl Hc. destruct (N.eqb_spec c2 chDOT) as [->|Hn].
  - eapply nf_inc_at; [exact Hc|discriminate|exact Hl|]. intros b. destruct r as [|r]; [apply nf_0|]. cbn [pred].
    specialize (IH r ltac:(lia)). nf.
  - discriminate.
Qed.
Lemma nf_sep r : nf r parse_sep.
Proof.
  unfold parse_sep. apply nf_bind; [good|nf|]. intros _. apply nf_bind; [good|nf|]. intros c. apply nf_bind.
  - apply good_seploop.
  - intros st _. generalize (p_rest st) (p_pre st) (p_mark st) (c =? chEQ)%N. clear. intros rest.
    induction rest as [|x r0 IH]; intros pre mk f; cbn [sep_loop]; [discriminate|]. destruct (is_kv_sep x); [|discriminate].
    destruct r0 as [|d r1]; [discriminate|]. destruct (d =? chEQ)%N; [|apply IH]. destruct f; [|apply IH].
    cbn [fst]. unfold parse_error. destruct (to_linecol _ _). discriminate.
  - intros. nf.
Qed.
Lemma nf_bool r b : nf r (parse_bool b).
Proof. unfold parse_bool. apply nf_restore. apply nf_bind; [destruct b; good|destruct b; cbn; nf|]. intros. nf. Qed.
Lemma nf_digit r : nf r parse_digit_value.
Proof. unfold parse_digit_value. nf. Qed.
Lemma nf_signed r : nf r parse_signed_value.
Proof. unfold parse_signed_value. nf. Qed.
Lemma nf_trail r : nf r parse_trail.
Proof. unfold parse_trail. nf. Qed.
Global Hint Resolve nf_trail : nf.
Lemma nf_comment_trail r b : nf r (parse_comment_trail b).
Proof. unfold parse_comment_trail. nf. Qed.
Global Hint Resolve nf_sep nf_bool nf_digit nf_signed nf_comment_trail : nf.
Lemma nf_add r s c k i : nf r (add_elem s c k i).
Proof. apply nf_lift, cappend_fuel. Qed.
Global Hint Resolve nf_add : nf.
Lemma nf_kv_with r s pv n b : good pv -> nf r pv -> r + 1 <= n -> nf r (key_value_with s pv n b).
Proof. intros G H Hr. pose proof (nf_parse_key n r Hr). unfold key_value_with. nf. Qed.
Lemma prog_kv_with s pv n b : prog pv -> prog (key_value_with s pv n b).
Proof.
  intros H. unfold key_value_with. do 5 (apply prog_bind_r; [good|intros ?]). apply prog_bind_l; [exact H|]. intros. good.
Qed.
Lemma comment_prog b st r st' : cur st = chHASH -> parse_comment_trail b st = (Ok r, st') -> len st' < len st.
Proof.
  intros Hc E. assert (He : at_end st = false) by (apply cur_end; rewrite Hc; discriminate).
  unfold parse_comment_trail in E. apply bind_inv in E as (e & st1 & E1 & E). inversion E1; subst; clear E1. rewrite He in E.
  apply bind_inv in E as (u & st2 & E2 & E). inversion E2; subst; clear E2.
  apply bind_inv in E as (u2 & st3 & E3 & E). inversion E3; subst; clear E3.
  apply bind_inv in E as (e & st4 & E4 & E). inversion E4; subst; clear E4.
  apply bind_inv in E as (c & st5 & E5 & E). inversion E5; subst; clear E5.
  assert (Ea : adv_while is_blank (set_mark st1) = set_mark st1).
  { destruct st1 as [pre [|c r0] mk]; [discriminate|]. unfold cur in Hc. cbn in Hc. subst c. unfold adv_while, set_mark; cbn. rewrite app_nil_r. reflexivity. }
  rewrite Ea in E. assert (Hcur : cur (set_mark st1) = chHASH) by (unfold cur in *; exact Hc).
  assert (Hen : at_end (set_mark st1) = false) by exact He. rewrite Hcur, Hen in E. cbn [orb] in E.
  change (chHASH =? chLF)%N with false in E. change (chHASH =? chHASH)%N with true in E. cbv iota in E.
  apply bind_inv in E as ([cws cm] & st6 & E6 & E). apply len_good in E; [|good]. eapply Nat.le_lt_trans; [exact E|].
  apply bind_inv in E6 as (x1 & st7 & E7 & E6). inversion E7; subst; clear E7.
  apply bind_inv in E6 as (x2 & st8 & E8 & E6). inversion E8; subst; clear E8.
  apply bind_inv in E6 as (x3 & st9 & E9 & E6). apply len_good in E6; [|good]. eapply Nat.le_lt_trans; [exact E6|].
  pose proof (inc_len (set_mark (set_mark st1)) Hen) as L. unfold incM in E9. destruct (inc (set_mark (set_mark st1))). inversion E9; subst. exact L.
Qed.
Lemma adv_len p st : len (adv_while p st) <= len st.
Proof. apply drop_while_len. Qed.
Lemma take_adv p st : nonempty (take_while p (p_rest st)) = true -> len (adv_while p st) < len st.
Proof.
  intros H. unfold len, adv_while; cbn [p_rest]. rewrite <- (take_drop p (p_rest st)) at 2. rewrite app_length.
  destruct (take_while p (p_rest st)); [discriminate|]. cbn. lia.
Qed.
Lemma nf_values n : forall s r,
  (4 * r + 2 <= n -> nf r (parse_value s n)) /\ (4 * r + 4 <= n -> forall e p, nf r (array_loop s n e p))
  /\ (4 * r + 4 <= n -> forall e t, nf r (inline_loop s n e t)).
Proof.
  induction n as [|n IH]; intros s r; [repeat split; intros; lia|].
  split; [|split].
  - intros Hr. cbn [parse_value]. destruct r as [|r]; [apply nf_0|].
    destruct (IH s r) as (_ & IHa & IHi). pose proof (good_values n s) as (_ & GA & GI).
    apply nf_bind; [good|nf|]. intros _. apply nf_bind; [good|nf|]. intros c. 
    assert (H1 := fun d => nf_parse_string n d (S r) ltac:(lia)).
    destruct (_ =? _)%N; [nf|]. destruct (_ =? _)%N; [nf|]. destruct (_ =? _)%N; [nf|]. destruct (_ =? _)%N; [nf|].
    destruct (_ =? _)%N; [apply nf_bind_prog; [apply prog_inc_exn|nf|intros _; apply IHa; lia]|].
    destruct (_ =? _)%N; [apply nf_bind_prog; [apply prog_inc_exn|nf|intros _; apply IHi; lia]|]. nf.
  - intros Hr e p. destruct r as [|r]; [apply nf_0|]. destruct (IH s r) as (_ & IHa & _). specialize (IHa ltac:(lia)).
    destruct (IH s (S r)) as (IHv & _ & _). specialize (IHv ltac:(lia)).
    cbn [array_loop]. intros st Hl. unfold bind at 1, idxM. unfold bind at 1, adv_whileM. unfold bind at 1, since.
    match goal with |- fst (bind current ?f ?x) <> _ => change (fst (f (cur x) x) <> Err FuelE) end. cbv beta.
    set (st1 := adv_while is_ws st).
    assert (Hi : skipn (idx st) (p_pre st1) = take_while is_ws (p_rest st)).
    { subst st1. unfold adv_while, idx. cbn [p_pre]. rewrite skipn_app, skipn_all, Nat.sub_diag. reflexivity. }
    rewrite Hi. pose proof (adv_len is_ws st) as L1. pose proof (take_adv is_ws st) as L2. fold st1 in L1, L2.
    destruct (existsb is_nl (take_while is_ws (p_rest st))) eqn:En.
    { apply IHa. destruct (take_while is_ws (p_rest st)); [discriminate|]. specialize (L2 eq_refl). lia. }
    destruct (N.eqb_spec (cur st1) chHASH) as [Eh|Eh].
    { pose proof (comment_prog false st1) as C. pose proof (nf_comment_trail (S r) false st1 ltac:(lia)) as N.
      unfold bind. destruct (parse_comment_trail false st1) as [[[[cws cm] tr]|e0] st2]; [|cbn in *; congruence].
      specialize (C _ _ Eh eq_refl). apply IHa. lia. }
    destruct (nonempty (take_while is_ws (p_rest st))) eqn:Ene; [apply IHa; specialize (L2 eq_refl); lia|]. clear L2.
    cbv zeta. match goal with |- context [bind current ?f] => set (nxt := bind current f) end.
    assert (Nx : nf (S r) nxt).
    { subst nxt. apply nf_bind; [good|nf|]. intros c. destruct (match p with Some true => _ | _ => _ end).
      - apply nf_bind_prog; [apply prog_inc_exn|nf|]. intros _. apply IHa.
      - nf. }
    assert (V : fst (match parse_value s n st1 with
              | (Ok v, st') => if s && nonempty (tr_cws (item_trivia v)) then (Err (LossyE 2), st')
                  else array_loop s n (e ++ [EVal v]) (Some true) st'
              | (Err (ParseErr (KUnexpectedChar _) _ _), st') => if s && negb (Nat.eqb (idx st') (idx st1)) && (cur st' =? chRBR)%N then (Err (LossyE 4), st') else nxt st'
              | (Err e, st') => (Err e, st')
              end) <> Err FuelE).
    { pose proof (IHv st1 ltac:(lia)) as V. pose proof (prog_values n s st1) as P. pose proof (good_len (parse_value s n) st1 (good_value s n)) as G.
      destruct (parse_value s n st1) as [[v|e0] st2]; cbn [fst snd] in *.
      - specialize (P _ _ eq_refl). destruct (_ && _); [discriminate|]. apply IHa. lia.
      - destruct e0 as [k0 l0 c0| | | | | | | | | | | | | |]; try discriminate; try congruence. destruct k0; try discriminate.
        destruct (_ && _); [discriminate|]. apply Nx. lia. }
    destruct p as [[|]|]; [apply Nx; lia|exact V|exact V].
  - intros Hr e t. destruct r as [|r]; [apply nf_0|]. destruct (IH s r) as (_ & _ & IHi). specialize (IHi ltac:(lia)).
    destruct (IH s (S r)) as (IHv & _ & _). specialize (IHv ltac:(lia)).
    pose proof (good_values n s) as (GV & GA & GI).
    cbn [inline_loop]. do 5 (apply nf_bind; [unfold add_elem; good|nf|intros ?]).
    destruct (_ && _); [nf|]. destruct (match t with Some _ => _ | None => _ end); [nf|].
    apply nf_bind_prog; [apply prog_kv_with, prog_values|apply nf_kv_with; [good|exact IHv|lia]|]. intros kv. cbn [pred].
    do 5 (apply nf_bind; [unfold add_elem; good|nf|intros ?]). apply nf_bind; [good|nf|]. intros c. destruct (_ =? _)%N; [|apply IHi].
    apply nf_bind; [good|nf|]. intros _. apply nf_bind; [good|nf|]. intros _. apply IHi.
Qed.
Lemma nf_value s n r : 4 * r + 2 <= n -> nf r (parse_value s n).
Proof. apply nf_values. Qed.
Lemma nf_item_head r : nf r item_head.
Proof. unfold item_head. nf. Qed.
Lemma nf_item s n r : 4 * r + 2 <= n -> nf r (parse_item s n).
Proof.
  intros Hr st Hl. unfold parse_item. pose proof (nf_restore r _ (nf_item_head r) st Hl) as H.
  destruct (restore_on_err item_head st) as [[[i| |]|e] st1]; try discriminate; [|cbn in *; congruence].
  match goal with |- fst (?m ?x) <> _ => assert (G : nf r m); [|apply G; exact Hl] end.
  apply nf_bind; [good|unfold parse_key_value; apply nf_kv_with; [good|apply nf_value; lia|lia]|]. intros. nf.
Qed.
Lemma prog_item s n st x st' : at_end st = false -> parse_item s n st = (Ok (Some x), st') -> len st' < len st.
Proof.
  intros He E. unfold parse_item in E. destruct (restore_on_err item_head st) as [[h|e] st1] eqn:Eh; [|discriminate].
  unfold restore_on_err in Eh. destruct (item_head st) as [[h0|e0] st0] eqn:E0; [|discriminate]. inversion Eh; subst h0 st0; clear Eh.
  destruct h as [i| |]; [|discriminate|].
  - inversion E; subst; clear E.
    unfold item_head in E0. apply bind_inv in E0 as (? & st2 & X & E0). inversion X; subst; clear X.
    apply bind_inv in E0 as (? & st3 & X & E0). inversion X; subst; clear X.
    apply bind_inv in E0 as (e & st4 & X & E0). inversion X; subst; clear X.
    apply bind_inv in E0 as (ws & st5 & X & E0). inversion X; subst; clear X.
    apply bind_inv in E0 as (c & st6 & X & E0). inversion X; subst; clear X.
    pose proof (adv_len is_blank (set_mark st)) as L. set (st2 := adv_while is_blank (set_mark st)) in *.
    change (len (set_mark st)) with (len st) in L.
    destruct (at_end st2 && nonempty (extract st2)) eqn:E1.
    { inversion E0; subst. apply andb_true_iff in E1 as [E1 _]. apply at_end_rest in E1. unfold at_end in He. unfold len. rewrite E1.
      destruct (p_rest st); [discriminate|cbn; lia]. }
    destruct (N.eqb_spec (cur st2) chLF) as [Ec|Ec].
    { apply bind_inv in E0 as (b & st3 & X & E0). apply bind_inv in E0 as (w & st4 & Y & E0). inversion Y; subst; clear Y. inversion E0; subst; clear E0.
      pose proof (inc_len st2 ltac:(apply cur_end; rewrite Ec; discriminate)) as I2. unfold incM in X. destruct (inc st2). inversion X; subst. cbn [snd] in I2. eapply Nat.lt_le_trans; [exact I2|exact L]. }
    destruct (N.eqb_spec (cur st2) chHASH) as [Eh|Eh].
    { apply bind_inv in E0 as ([[cws cm] tr] & st3 & X & E0). inversion E0; subst. apply comment_prog in X; [lia|exact Eh]. }
    destruct (N.eqb_spec (cur st2) chLBR) as [El|El]; inversion E0.
  - apply bind_inv in E as (kv & st2 & E1 & E). inversion E; subst; clear E. unfold parse_key_value in E1.
    apply (prog_kv_with s _ n true (prog_values n s)) in E1. exact E1.
Qed.
Lemma nf_table_key n r : r + 1 <= n -> nf r (parse_table_key n).
Proof.
  intros Hr st Hl. unfold parse_table_key. pose proof (nf_parse_key n r Hr st Hl) as H. destruct (parse_key n st) as [[k|e] st']; [exact H|].
  destruct e as [k l c| | | | | | | | | | | | | |]; try exact H. destruct k; try exact H. cbn. unfold parse_error. destruct (to_linecol _ _). discriminate.
Qed.
Lemma nf_peek_table n r : r + 1 <= n -> nf r (peek_table n).
Proof. intros Hr. pose proof (nf_table_key n r Hr). unfold peek_table. nf. Qed.
Lemma nf_validate r c : nf r (lift (validate_all c)).
Proof. apply nf_lift, validate_all_fuel. Qed.
Lemma nf_table_append r s c k i : nf r (table_append_m s c k i).
Proof. apply nf_lift, table_raw_append_fuel. Qed.
Lemma good_table_append s c k i : good (table_append_m s c k i).
Proof. apply good_lift. Qed.
Global Hint Resolve nf_validate nf_table_append : nf.
Global Hint Resolve good_table_append : good.
Lemma prog_table s n p t k : prog (parse_table s n p t k).
Proof.
  destruct n as [|n]; [apply prog_raise_exn|]. pose proof (good_tables n) as (G1 & G2 & G3 & G4 & G5).
  intros st a st' E. cbn [parse_table] in E. apply bind_inv in E as (c & st1 & X & E). inversion X; subst; clear X.
  destruct (N.eqb_spec (cur st1) chLBR) as [Ec|]; [|discriminate]. cbn [negb] in E.
  apply bind_inv in E as (c & st2 & X & E). inversion X; subst; clear X.
  apply bind_inv in E as (b & st3 & X & E). apply len_good in E; [|good].
  eapply Nat.le_lt_trans; [exact E|]. pose proof (inc_len st2 ltac:(apply cur_end; rewrite Ec; discriminate)) as L. unfold incM in X.
  destruct (inc st2). inversion X; subst. exact L.
Qed.
Definition tabs_nf n := forall s r,
  (4 * r + 6 <= n -> forall p t k, nf r (parse_table s n p t k))
  /\ (4 * r + 7 <= n -> forall f k c, nf r (table_loop s n f k c))
  /\ (4 * r + 7 <= n -> forall f k c, nf r (siblings s n f k c))
  /\ (4 * r + 8 <= n -> forall x m k, nf r (parse_aot s n x m k))
  /\ (4 * r + 7 <= n -> forall l m k, nf r (aot_loop s n l m k)).
Lemma tabs_nf_ok n : tabs_nf n.
Proof.
  induction n as [|n IH]; intros s r; [repeat match goal with |- _ /\ _ => split end; intros; exfalso; lia|].
  destruct r as [|r]; [repeat match goal with |- _ /\ _ => split end; intros; apply nf_0|].
  destruct (IH s r) as (_ & J2 & J3 & J4 & J5). destruct (IH s (S r)) as (I1 & _ & _ & _ & I5).
  pose proof (good_tables n) as (G1 & G2 & G3 & G4 & G5).
  split; [|split; [|split; [|split]]].
  - intros Hr p t k. specialize (J2 ltac:(lia)). specialize (J4 ltac:(lia)).
    cbn [parse_table]. intros st Hl.
    match goal with |- fst (bind current ?f ?x) <> _ => change (fst (f (cur x) x) <> Err FuelE) end. cbv beta.
    destruct (N.eqb_spec (cur st) chLBR) as [Ec|]; [|apply (nf_raise (S r)); exact Hl]. cbn [negb].
    unfold bind at 1, extractM. eapply nf_inc_at; [exact Ec|discriminate|exact Hl|]. intros b0. cbn [pred].
    pose proof (nf_table_key n r ltac:(lia)) as Hk.
    apply nf_bind; [good|nf|]. intros e. destruct e; [nf|]. apply nf_bind; [good|nf|]. intros c.
    apply nf_bind; [good|nf|]. intros ia. apply nf_bind; [good|nf|]. intros key.
    apply nf_bind; [good|nf|]. intros e. apply nf_bind; [good|nf|]. intros c2. destruct e; [nf|]. destruct (negb _); [nf|]. cbv zeta.
    destruct (existsb _ _); [nf|]. apply nf_bind; [good|nf|]. intros _. apply nf_bind; [good|nf|]. intros c3. apply nf_bind; [good|nf|]. intros _.
    apply nf_bind; [good|nf|]. intros _. apply nf_bind; [good|nf|]. intros [[cws cm] tr]. apply nf_bind; [good|nf|]. intros _.
    apply nf_bind; [good|nf|]. intros _. apply nf_bind; [good|apply J2|]. intros c4. apply nf_bind; [good|nf|]. intros _. apply nf_bind; [good|nf|]. intros _.
    destruct (skipn _ _) as [|p0 [|p1 rest]]; nf.
  - intros Hr f k c. specialize (I1 ltac:(lia)). specialize (J2 ltac:(lia)). specialize (J3 ltac:(lia)).
    cbn [table_loop]. intros st Hl. unfold bind at 1, endM. destruct (at_end st) eqn:Ee; [discriminate|].
    pose proof (nf_item s n (S r) ltac:(lia) st Hl) as Hi. pose proof (prog_item s n st) as Hp. pose proof (good_len (parse_item s n) st (good_item s n)) as Hg.
    unfold bind at 1. destruct (parse_item s n st) as [[[[k0 i]|]|e] st1]; [| |cbn in *; congruence]; cbn [snd] in Hg.
    + specialize (Hp _ _ Ee eq_refl). match goal with |- fst (?m ?x) <> _ => assert (G : nf r m); [|apply G; lia] end.
      apply nf_bind; [good|nf|]. intros x. destruct (merge_ws i c x); [apply J2|]. apply nf_bind; [good|nf|]. intros; apply J2.
    + match goal with |- fst (?m ?x) <> _ => assert (G : nf (S r) m); [|apply G; lia] end.
      apply nf_bind; [good|nf|]. intros ch. destruct (_ =? _)%N; [|nf]. apply nf_bind; [good|apply nf_peek_table; lia|]. intros pk.
      destruct (is_child _ _); [|nf]. apply nf_bind_prog; [apply prog_table|apply I1|]. intros kt. cbn [pred].
      apply nf_bind; [good|nf|]. intros c'. apply J3.
  - intros Hr f k c. specialize (I1 ltac:(lia)). specialize (J3 ltac:(lia)). cbn [siblings].
    apply nf_bind; [good|nf|]. intros e. destruct e; [nf|]. apply nf_bind; [good|apply nf_peek_table; lia|]. intros pk.
    destruct (is_child _ _); [|nf]. apply nf_bind_prog; [apply prog_table|apply I1|]. intros kt. cbn [pred].
    apply nf_bind; [good|nf|]. intros c'. apply J3.
  - intros Hr x m k. specialize (I5 ltac:(lia)). cbn [parse_aot]. apply nf_bind; [good|apply I5|]. intros. nf.
  - intros Hr l m k. specialize (I1 ltac:(lia)). specialize (J5 ltac:(lia)). cbn [aot_loop].
    apply nf_bind; [good|nf|]. intros e. destruct e; [nf|]. apply nf_bind; [good|apply nf_peek_table; lia|]. intros pk.
    destruct (_ && _); [|nf]. apply nf_bind_prog; [apply prog_table|apply I1|]. intros kt. cbn [pred].
    destruct (snd kt); nf.
Qed.
Lemma nf_wrap r x : x <> Err FuelE -> nf r (wrap_append x).
Proof. intros H. destruct x as [c|e]; cbn [wrap_append]; [nf|]. destruct e; try (nf; fail); try (apply nf_raise_exn; congruence). Qed.
Lemma nf_body n : forall s r c, 4 * r + 3 <= n -> nf r (body_loop s n c).
Proof.
  induction n as [|n IH]; intros s r c Hr; [lia|]. destruct r as [|r]; [apply nf_0|].
  cbn [body_loop]. intros st Hl. unfold bind at 1, endM.
  match goal with |- fst (bind current ?f ?x) <> _ => change (fst (f (cur x) x) <> Err FuelE) end. cbv beta.
  destruct (at_end st) eqn:Ee; [discriminate|]. cbn [orb]. destruct (_ =? _)%N; [discriminate|].
  pose proof (nf_item s n (S r) ltac:(lia) st Hl) as Hi. pose proof (prog_item s n st) as Hp.
  unfold bind at 1. destruct (parse_item s n st) as [[[[k0 i]|]|e] st1]; [|discriminate|cbn in *; congruence].
  specialize (Hp _ _ Ee eq_refl). match goal with |- fst (?m ?x) <> _ => assert (G : nf r m); [|apply G; lia] end.
  assert (B : forall c, nf r (body_loop s n c)) by (intros; apply IH; lia).
  apply nf_bind; [good|nf|]. intros x. 
  match goal with |- nf r (match ?o with Some _ => _ | None => _ end) => destruct o as [c'|] end.
  - apply nf_bind; [good|nf|]. intros _. apply B.
  - apply nf_bind; [good|apply nf_wrap, cappend_fuel|]. intros c'. apply nf_bind; [good|nf|]. intros _. apply B.
Qed.
Lemma nf_tables_loop n : forall s r c, 4 * r + 8 <= n -> nf r (tables_loop s n c).
Proof.
  induction n as [|n IH]; intros s r c Hr; [lia|]. destruct r as [|r]; [apply nf_0|].
  destruct (tabs_nf_ok n s (S r)) as (T1 & _). specialize (T1 ltac:(lia)). destruct (tabs_nf_ok n s r) as (_ & _ & _ & T4 & _). specialize (T4 ltac:(lia)).
  cbn [tables_loop]. apply nf_bind; [good|nf|]. intros e. destruct e; [nf|]. apply nf_bind_prog; [apply prog_table|apply T1|]. intros kt. cbn [pred].
  apply nf_bind; [good|destruct (snd kt); nf|]. intros v. apply nf_bind; [good|apply nf_wrap, cappend_fuel|]. intros c'. apply IH. lia.
Qed.
Lemma parse_doc_fuel strict n s : parse_fuel s <= n -> fst (parse_doc strict n (start s)) <> Err FuelE.
Proof.
  intros Hn. unfold parse_fuel in Hn. assert (G : nf (S (List.length s)) (parse_doc strict n)).
  - unfold parse_doc. apply nf_bind; [good|apply nf_body; lia|]. intros c. apply nf_bind; [good|apply nf_tables_loop; lia|]. intros. nf.
  - apply G. unfold len. cbn. lia.
Qed.
Lemma parse_gen_fuel strict s : parse_gen strict s <> Err FuelE.
Proof. apply parse_doc_fuel. lia. Qed.
Lemma value_of_fuel s : value_of s <> Err FuelE.
Proof.
  unfold value_of, parse_fuel. match goal with |- fst (?m ?x) <> _ => assert (G : nf (S (List.length s)) m); [|apply G; cbn; unfold len; cbn; lia] end.
  apply nf_bind; [good|apply nf_value; lia|]. intros. nf.
Qed.
