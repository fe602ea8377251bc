(** Control: which control characters an accepted text may contain (C29). *)
From Verif Require Import Base Source Utils Items Container Arrays Parser Lemmas Escape Strings StringRT StringApi Numbers Reader Errors.
From Coq Require Import ZifyBool ZifyNat ZifyN.
Open Scope nat_scope.

(** The control characters that Python never treats as white space:
    U+0000-U+0008, U+000E-U+001B and U+007F. *)
Definition hard (c : char) : bool := (c <=? 8)%N || ((14 <=? c)%N && (c <=? 27)%N) || (c =? 127)%N.
Definition soft (c : char) : Prop := hard c = false.

(** [a] ends an array-of-tables header up to its first closing bracket. *)
Definition after_aot (a : str) : Prop := exists x y, a = x ++ [chLBR; chLBR] ++ y ++ [chRBR].
(** Every hard control character of [w] stands right after such a bracket. *)
Definition tame (w : str) : Prop := forall a c b, w = a ++ c :: b -> hard c = true -> after_aot a.

Lemma tame_nil : tame [].
Proof. intros a c b H. destruct a; discriminate. Qed.
Lemma tame_snoc w c : tame w -> (hard c = true -> after_aot w) -> tame (w ++ [c]).
Proof.
  intros H K a d b E Hd. destruct (exists_last (l := d :: b)) as (m & z & Em); [discriminate|].
  rewrite Em, app_assoc in E. apply app_inj_tail in E as [E <-].
  destruct m as [|d' m]; cbn in Em; inversion Em; subst.
  - rewrite app_nil_r in *. apply K, Hd.
  - apply (H a d' m); auto.
Qed.
Lemma tame_app w v : tame w -> Forall soft v -> tame (w ++ v).
Proof.
  intros H F. revert w H. induction F as [|c v Hc F IH]; intros w H; [rewrite app_nil_r; exact H|].
  replace (w ++ c :: v) with ((w ++ [c]) ++ v) by (rewrite <- app_assoc; reflexivity).
  apply IH, tame_snoc; [exact H|]. intros X. unfold soft in Hc. congruence.
Qed.

Definition clean (st : pst) : Prop := tame (p_pre st).
Definition uerr (e : exn) : Prop := match e with ParseErr (KUnexpectedChar _) _ _ => True | _ => False end.

Definition ct {A} (P : pst -> Prop) (m : M A) (Q : A -> pst -> Prop) : Prop :=
  forall st, clean st -> P st ->
    match m st with (Ok a, st') => clean st' /\ Q a st' | (Err e, st') => uerr e -> clean st' end.
Notation T1 := (fun _ => True).
Notation T2 := (fun _ _ => True).

Lemma ct_bind {A B} (m : M A) (f : A -> M B) P Q R : ct P m Q -> (forall a, ct (Q a) (f a) R) -> ct P (bind m f) R.
Proof.
  intros H K st Hc Hp. specialize (H st Hc Hp). unfold bind. destruct (m st) as [[a|e] st']; [|exact H].
  apply K; apply H.
Qed.
Lemma ct_pre {A} (m : M A) (P P' : pst -> Prop) Q : (forall st, P' st -> P st) -> ct P m Q -> ct P' m Q.
Proof. intros H K st Hc Hp. apply K; auto. Qed.
Lemma ct_post {A} (m : M A) P (Q Q' : A -> pst -> Prop) : (forall a st, Q a st -> Q' a st) -> ct P m Q -> ct P m Q'.
Proof. intros H K st Hc Hp. specialize (K st Hc Hp). destruct (m st) as [[a|e] st']; [|exact K]. split; [apply K|apply H, K]. Qed.
Lemma ct_weak {A} (m : M A) P : ct T1 m T2 -> ct P m T2.
Proof. apply ct_pre. auto. Qed.
Lemma ct_ret {A} (a : A) (P : pst -> Prop) (Q : A -> pst -> Prop) : (forall st, P st -> Q a st) -> ct P (ret a) Q.
Proof. intros H st Hc Hp. split; [exact Hc|apply H, Hp]. Qed.
Lemma ct_raise {A} k P Q : ct P (@raise A k) Q.
Proof. intros st Hc _. cbn. auto. Qed.
Lemma ct_raise_exn {A} e P Q : ct P (@raise_exn A e) Q.
Proof. intros st Hc _. cbn. auto. Qed.
Lemma ct_lift {A} (r : res A) (P : pst -> Prop) : ct P (lift r) (fun _ => P).
Proof. intros st Hc Hp. unfold lift. destruct r; auto. Qed.
Lemma ct_cur {B} (f : char -> M B) P Q : (forall c, ct (fun st => P st /\ cur st = c) (f c) Q) -> ct P (bind current f) Q.
Proof. intros H st Hc Hp. unfold bind, current. apply H; auto. Qed.
Lemma ct_cur' {B} (f : char -> M B) P Q : (forall c, ct (fun st => cur st = c) (f c) Q) -> ct P (bind current f) Q.
Proof. intros H. apply ct_cur. intros c. eapply ct_pre; [|apply H]. tauto. Qed.
Lemma ct_mark (P : pst -> Prop) : (forall st, P st -> P (set_mark st)) -> ct P mark (fun _ => P).
Proof. intros H st Hc Hp. split; [exact Hc|apply H, Hp]. Qed.
Lemma ct_extract (P : pst -> Prop) : ct P extractM (fun _ => P).
Proof. intros st Hc Hp. split; auto. Qed.
Lemma ct_end (P : pst -> Prop) : ct P endM (fun _ => P).
Proof. intros st Hc Hp. split; auto. Qed.
Lemma ct_get (P : pst -> Prop) : ct P get (fun x st => P st /\ x = st).
Proof. intros st Hc Hp. split; auto. Qed.
Lemma ct_since a (P : pst -> Prop) : ct P (since a) (fun _ => P).
Proof. intros st Hc Hp. split; auto. Qed.
Lemma ct_idx (P : pst -> Prop) : ct P idxM (fun _ => P).
Proof. intros st Hc Hp. split; auto. Qed.
Lemma ct_peek n (P : pst -> Prop) : ct P (peek n) (fun _ => P).
Proof. intros st Hc Hp. split; auto. Qed.
Lemma ct_lossy b n (P : pst -> Prop) : ct P (lossy_if b n) (fun _ => P).
Proof. unfold lossy_if. destruct b; [apply ct_raise_exn|apply ct_ret; auto]. Qed.
Lemma ct_value_error {A} k (r : res A) (P : pst -> Prop) : ct P (value_error k r) (fun a st => P st /\ r = Ok a).
Proof. destruct r as [a|[]]; cbn [value_error]; first [apply ct_raise|apply ct_raise_exn|apply ct_ret; auto]. Qed.

Lemma inc_clean st : clean st -> soft (cur st) \/ at_end st = true -> clean (snd (inc st)).
Proof.
  unfold clean, inc, cur, at_end. intros H K. destruct (p_rest st) as [|c r]; cbn; [exact H|].
  apply tame_snoc; [exact H|]. intros X. destruct K as [K|K]; [unfold soft in K; congruence|discriminate].
Qed.
Lemma ct_inc (P : pst -> Prop) c : soft c -> (forall st, P st -> cur st = c) -> ct P incM T2.
Proof.
  intros Hs Hp st Hc H. pose proof (inc_clean st Hc) as K. unfold incM. destruct (inc st) as [b st']. split; [|exact I].
  apply K. left. rewrite (Hp st H). exact Hs.
Qed.
Lemma ct_inc_exn (P : pst -> Prop) k c : soft c -> (forall st, P st -> cur st = c) -> ct P (inc_exn k) T2.
Proof.
  intros Hs Hp st Hc H. pose proof (inc_clean st Hc) as K. unfold inc_exn. destruct (inc st) as [[] st']; [split; [|exact I]|intros _];
    apply K; left; rewrite (Hp st H); exact Hs.
Qed.
Lemma tw_soft p w : (forall c, p c = true -> soft c) -> Forall soft (take_while p w).
Proof. intros H. pose proof (take_while_all p w) as K. eapply Forall_impl; [exact H|exact K]. Qed.
Lemma ct_adv p P : (forall c, p c = true -> soft c) -> ct P (adv_whileM p) T2.
Proof. intros H st Hc _. split; [|exact I]. apply tame_app; [exact Hc|apply tw_soft, H]. Qed.
Lemma ct_consume1 c P : soft c -> ct P (consume1 c) T2.
Proof.
  intros H st Hc _. unfold consume1. destruct (N.eqb_spec (cur st) c); [|auto]. split; [|exact I]. apply inc_clean; [exact Hc|].
  left. congruence.
Qed.
Lemma ct_restore {A} (m : M A) P Q : ct P m Q -> ct P (restore_on_err m) Q.
Proof.
  intros H st Hc Hp. specialize (H st Hc Hp). unfold restore_on_err. destruct (m st) as [[a|e] st']; [exact H|]. intros _. exact Hc.
Qed.
Lemma ct_restoring {A} (m : M A) P : ct P (restoring m) T2.
Proof. intros st Hc _. unfold restoring. destruct (m st) as [[a|e] st']; [split; auto|]. intros _. exact Hc. Qed.
Lemma ct_restoring_all {A} (m : M A) (P : pst -> Prop) : ct P (restoring_all m) (fun _ => P).
Proof. intros st Hc Hp. unfold restoring_all. destruct (m st) as [[a|e] st']; auto. Qed.

(** Character classes *)
Ltac chr := intros; unfold soft, hard, is_blank, is_ws, is_spaces, bad_comment_char, bad_string_char, is_nl, is_kv_sep, is_bare_key_char, is_ascii_letter, is_ascii_digit, is_date_stop,
  is_val_delim, is_quote, chSP, chTAB, chCR, chLF, chHASH, chDQ, chSQ, chEQ, chDOT, chMINUS, chPLUS, chUND, chLBR, chRBR, chLCB, chRCB, chCOMMA, chCOLON, chBSL, chNUL in *; lia.
Lemma soft_blank c : is_blank c = true -> soft c. Proof. chr. Qed.
Lemma soft_spaces c : is_spaces c = true -> soft c. Proof. chr. Qed.
Lemma soft_ws c : is_ws c = true -> soft c. Proof. chr. Qed.
Lemma soft_nobad c : (negb (is_nl c) && negb (bad_comment_char c))%bool = true -> soft c. Proof. chr. Qed.
Lemma soft_bare c : (is_bare_key_char c || is_spaces c)%bool = true -> soft c. Proof. chr. Qed.
Lemma soft_kvsep c : is_kv_sep c = true -> soft c. Proof. chr. Qed.
Lemma soft_nobads b c : bad_string_char b c = false -> soft c.
Proof. destruct b; chr. Qed.
Lemma soft_isspace c : py_isspace c = true -> soft c. Proof. unfold py_isspace. chr. Qed.
#[local] Hint Resolve soft_blank soft_spaces soft_ws soft_nobad soft_bare soft_kvsep : soft.

Ltac softc := first [ solve [unfold soft; reflexivity]
  | match goal with H : (?c =? ?k)%N = true |- soft ?c => apply N.eqb_eq in H; subst c; unfold soft; reflexivity end
  | match goal with H : negb (?c =? ?k)%N = false |- soft ?c => apply negb_false_iff, N.eqb_eq in H; subst c; unfold soft; reflexivity end
  | match goal with |- soft ?c => chr end ].
Ltac psts := cbv beta; intros; repeat match goal with H : _ /\ _ |- _ => destruct H end; eassumption.
Ltac ct :=
  repeat (first
    [ solve [auto with ct]
    | apply ct_weak; solve [auto with ct]
    | apply ct_raise | apply ct_raise_exn
    | apply ct_ret; solve [auto]
    | apply ct_cur'; intros ?
    | (eapply ct_inc; [|psts]); softc
    | (eapply ct_inc_exn; [|psts]); softc
    | apply ct_adv; solve [auto with soft | intros ?; let H := fresh in intros H; softc]
    | apply ct_consume1; softc
    | eapply ct_bind; [apply ct_extract|intros ?]
    | eapply ct_bind; [apply ct_end|intros ?]
    | eapply ct_bind; [apply ct_lossy|intros ?]
    | eapply ct_bind; [apply ct_lift|intros ?]
    | eapply ct_bind; [apply ct_since|intros ?]
    | eapply ct_bind; [apply ct_idx|intros ?]
    | eapply ct_bind; [apply ct_peek|intros ?]
    | eapply ct_bind; [apply ct_get|intros ?]
    | eapply ct_bind; [apply ct_mark; solve [auto]|intros ?]
    | eapply ct_bind; [apply ct_restoring_all|intros ?]
    | apply ct_restore
    | apply ct_restoring
    | match goal with |- ct _ extractM _ => eapply ct_post; [|apply ct_extract]; auto
                    | |- ct _ (lift _) _ => eapply ct_post; [|apply ct_lift]; auto
                    | |- ct _ mark _ => eapply ct_post; [|apply ct_mark; auto]; auto end
    | match goal with |- ct _ (match ?x with _ => _ end) _ => destruct x eqn:? end
    | match goal with |- ct _ (bind _ _) _ => apply ct_bind with (Q := T2); [|intros ?] end
    | progress cbv zeta
    | (apply ct_post with (Q := fun _ _ => True); [auto|]) ]).

Lemma ct_trail : ct T1 parse_trail T2.
Proof. unfold parse_trail. ct. Qed.
#[local] Hint Resolve ct_trail : ct.
Lemma ct_comment_trail b : ct T1 (parse_comment_trail b) T2.
Proof. unfold parse_comment_trail. ct. Qed.
#[local] Hint Resolve ct_comment_trail : ct.
Lemma ct_skip_ws : ct T1 skip_ws_exn T2.
Proof.
  intros st Hc _. unfold skip_ws_exn. pose proof (ct_adv is_ws T1 soft_ws st Hc I) as [H _].
  destruct (_ && _); [auto|split; auto].
Qed.
#[local] Hint Resolve ct_skip_ws : ct.

(** ** Numbers *)
Lemma drop_split p w : exists a, w = a ++ drop_while p w /\ Forall (fun c => p c = true) a.
Proof. exists (take_while p w). split; [symmetry; apply take_drop|apply take_while_all]. Qed.
Lemma rstrip_split p w : exists b, w = rstrip_p p w ++ b /\ Forall (fun c => p c = true) b.
Proof.
  unfold rstrip_p. destruct (drop_split p (rev w)) as (a & E & F). exists (rev a). split.
  - rewrite <- (rev_involutive w) at 1. rewrite E at 1. rewrite rev_app_distr. reflexivity.
  - apply Forall_rev, F.
Qed.
Lemma strip_split p w : exists a b, w = a ++ rstrip_p p (lstrip_p p w) ++ b /\ Forall (fun c => p c = true) a /\ Forall (fun c => p c = true) b.
Proof.
  destruct (drop_split p w) as (a & E & F). destruct (rstrip_split p (drop_while p w)) as (b & E2 & F2).
  exists a, b. split; [|split; assumption]. unfold lstrip_p. rewrite <- E2. exact E.
Qed.
(** What a hard character becomes before Python reads a number. *)
Definition odd (c : char) : bool := hard c || (c =? 63)%N.
Notation even_ := (fun c => odd c = false).
Lemma to_ascii_odd c : hard c = true -> odd (to_ascii c) = true.
Proof.
  intros H. unfold to_ascii, odd. destruct (N.ltb_spec c 127); [rewrite H; reflexivity|].
  assert (c = 127)%N by (unfold hard in H; lia). subst. reflexivity.
Qed.
Lemma odd_map w : Forall even_ (map to_ascii w) -> Forall soft w.
Proof.
  intros H. apply Forall_forall. intros c Hc. unfold soft. apply not_true_is_false. intros X.
  rewrite Forall_forall in H. specialize (H (to_ascii c) (in_map _ _ _ Hc)). cbn in H. rewrite to_ascii_odd in H; [discriminate|exact X].
Qed.
Lemma digit_even b c d : digit_in b c = Some d -> odd c = false.
Proof.
  unfold digit_in, digit_val, odd, hard. intros H. 
  repeat match type of H with context[if ?x then _ else _] => destruct x eqn:? end; try discriminate; lia.
Qed.
Lemma int_digits_even b w : forall a l n, int_digits b w a l = Some n -> Forall even_ w.
Proof.
  induction w as [|c w IH]; intros a l n H; cbn [int_digits] in H; constructor.
  - destruct (N.eqb_spec c chUND) as [->|]; [reflexivity|]. destruct (digit_in b c) eqn:E; [|discriminate]. eapply digit_even; eauto.
  - destruct (c =? chUND)%N; [destruct l; [|discriminate]|destruct (digit_in b c); [|discriminate]]; eapply IH; eauto.
Qed.
Lemma int_unsigned_even b w n : int_unsigned b w = Some n -> Forall even_ w.
Proof.
  unfold int_unsigned. destruct w as [|z [|p r]]; try apply int_digits_even. destruct (_ && _) eqn:E; [|apply int_digits_even].
  intros H. constructor; [|constructor].
  - unfold odd, hard. clear H. lia.
  - unfold odd, hard. clear H. lia.
  - destruct r as [|u r]; [constructor|]. destruct (N.eqb_spec u chUND) as [->|].
    + apply int_digits_even in H. constructor; [reflexivity|exact H].
    + eapply int_digits_even; eauto.
Qed.
Lemma space_even w : Forall (fun c => c_isspace c = true) w -> Forall even_ w.
Proof. apply Forall_impl. intros c. unfold c_isspace, odd, hard. lia. Qed.
Lemma py_int_soft w b z : py_int w b = Some z -> Forall soft w.
Proof.
  unfold py_int. intros H. apply odd_map. destruct (strip_split c_isspace (map to_ascii w)) as (a & e & E & Fa & Fe).
  rewrite E. set (m := rstrip_p _ _) in *. clearbody m. clear E.
  apply Forall_app. split; [apply space_even, Fa|]. apply Forall_app. split; [|apply space_even, Fe].
  destruct m as [|c r]; [constructor|].
  destruct (N.eqb_spec c chMINUS) as [->|]; [constructor; [reflexivity|]; destruct (int_unsigned b r) eqn:E; [eapply int_unsigned_even; eauto|discriminate]|].
  destruct (N.eqb_spec c chPLUS) as [->|]; [constructor; [reflexivity|]; destruct (int_unsigned b r) eqn:E; [eapply int_unsigned_even; eauto|discriminate]|].
  destruct (int_unsigned b (c :: r)) eqn:E; [eapply int_unsigned_even; eauto|discriminate].
Qed.
Lemma dig_even c : is_ascii_digit c = true -> odd c = false.
Proof. unfold is_ascii_digit, odd, hard. lia. Qed.
Lemma digs_even w : Forall (fun c => is_ascii_digit c = true) w -> Forall even_ w.
Proof. apply Forall_impl. apply dig_even. Qed.
Lemma alldig w : all_digits w = true -> Forall (fun c => is_ascii_digit c = true) w.
Proof. unfold all_digits. intros H. apply Forall_forall. apply forallb_forall. exact H. Qed.
Lemma lower_even w : Forall even_ (lower w) -> Forall even_ w.
Proof.
  unfold lower. intros H. apply Forall_forall. intros c Hc. rewrite Forall_forall in H. specialize (H _ (in_map _ _ _ Hc)). cbn in H.
  unfold lower_c in H. destruct (_ && _) eqn:E; [|exact H]. unfold odd, hard. lia.
Qed.
Lemma float_unsigned_even w f : float_unsigned w = Some f -> Forall even_ w.
Proof.
  unfold float_unsigned. destruct (str_eqb (lower w) (L "inf") || str_eqb (lower w) (L "infinity"))%bool eqn:E1.
  { intros _. apply lower_even. apply orb_true_iff in E1 as [E1|E1]; apply str_eqb_eq in E1; rewrite E1; repeat constructor. }
  destruct (str_eqb (lower w) (L "nan")) eqn:E2.
  { intros _. apply lower_even. apply str_eqb_eq in E2; rewrite E2; repeat constructor. }
  clear E1 E2. intros H. destruct (drop_split is_ascii_digit w) as (ip & E & F).
  rewrite E. apply Forall_app. split; [apply digs_even, F|]. clear E F.
  set (r1 := drop_while is_ascii_digit w) in *. clearbody r1. set (q := take_while is_ascii_digit w) in *. clearbody q. clear w.
  assert (G : forall r2, match r2 with
      | [] => True
      | c :: r => (if ((c =? 101) || (c =? 69))%N then
            let '(eneg, ed) := match r with
                               | d :: r' => if (d =? chMINUS)%N then (true, r')
                                            else if (d =? chPLUS)%N then (false, r') else (false, r)
                               | [] => (false, [])
                               end in
            match ed with [] => False | _ => all_digits ed = true end else False) end -> Forall even_ r2).
  { intros [|c r] K; [constructor|]. destruct ((c =? 101) || (c =? 69))%N%bool eqn:Ec; [|contradiction].
    constructor; [unfold odd, hard; clear K; lia|].
    destruct r as [|d r]; [contradiction|]. destruct (N.eqb_spec d chMINUS) as [->|].
    - destruct r; [contradiction|]. constructor; [reflexivity|]. apply digs_even, alldig, K.
    - destruct (N.eqb_spec d chPLUS) as [->|].
      + destruct r; [contradiction|]. constructor; [reflexivity|]. apply digs_even, alldig, K.
      + apply digs_even, alldig, K. }
  assert (K : forall (fp : str) r2, (if (List.length q + List.length fp =? 0)%nat then None
      else match r2 with
      | [] => Some (fun n => FDec n (dec_value (q ++ fp)) (- Z.of_nat (List.length fp))%Z)
      | c :: r =>
          if ((c =? 101) || (c =? 69))%N then
            let '(eneg, ed) := match r with
                               | d :: r' => if (d =? chMINUS)%N then (true, r')
                                            else if (d =? chPLUS)%N then (false, r') else (false, r)
                               | [] => (false, [])
                               end in
            match ed with
            | [] => None
            | _ => if all_digits ed
                   then Some (fun n => FDec n (dec_value (q ++ fp)) (- Z.of_nat (List.length fp) + (if (eneg : bool) then - Z.of_N (dec_value ed) else Z.of_N (dec_value ed)))%Z)
                   else None
            end
          else None
      end) = Some f -> Forall even_ r2).
  { clear H. intros fp r2 H. apply G. destruct (_ =? 0)%nat; [discriminate|]. destruct r2 as [|c r]; [exact I|].
    destruct ((c =? 101) || (c =? 69))%N%bool; [|discriminate].
    destruct (match r with [] => _ | _ => _ end) as [eneg ed]. destruct ed as [|x ed]; [discriminate|].
    destruct (all_digits (x :: ed)); [reflexivity|discriminate]. }
  destruct r1 as [|c r]; [constructor|]. destruct (N.eqb_spec c chDOT) as [->|].
  - constructor; [reflexivity|]. destruct (drop_split is_ascii_digit r) as (fp & E & F).
    rewrite E. apply Forall_app. split; [apply digs_even, F|]. eapply K. exact H.
  - eapply K. exact H.
Qed.
Lemma py_float_soft w f : py_float w = Some f -> Forall soft w.
Proof.
  unfold py_float. intros H. apply odd_map. destruct (strip_split c_isspace (map to_ascii w)) as (a & e & E & Fa & Fe).
  rewrite E. set (m := rstrip_p _ _) in *. clearbody m. clear E.
  apply Forall_app. split; [apply space_even, Fa|]. apply Forall_app. split; [|apply space_even, Fe].
  destruct m as [|c r]; [constructor|].
  destruct (N.eqb_spec c chMINUS) as [->|]; [constructor; [reflexivity|]; destruct (float_unsigned r) eqn:E; [eapply float_unsigned_even; eauto|discriminate]|].
  destruct (N.eqb_spec c chPLUS) as [->|]; [constructor; [reflexivity|]; destruct (float_unsigned r) eqn:E; [eapply float_unsigned_even; eauto|discriminate]|].
  destruct (float_unsigned (c :: r)) eqn:E; [eapply float_unsigned_even; eauto|discriminate].
Qed.
Lemma lower_soft w : Forall soft (lower w) -> Forall soft w.
Proof.
  unfold lower. intros H. apply Forall_forall. intros c Hc. rewrite Forall_forall in H. specialize (H _ (in_map _ _ _ Hc)).
  unfold lower_c, soft, hard in *. destruct (_ && _) eqn:E in H; lia.
Qed.
Lemma drop_us_soft b w : forall p, Forall soft (drop_underscores b p w) -> Forall soft w.
Proof.
  induction w as [|c w IH]; intros p H; cbn [drop_underscores] in H; [constructor|].
  destruct (_ && _) eqn:E.
  - apply andb_true_iff in E as [E _]. apply andb_true_iff in E as [E _]. apply N.eqb_eq in E. subst. constructor; [reflexivity|eauto].
  - inversion H; subst. constructor; eauto.
Qed.
Lemma parse_number_soft raw v : parse_number raw = Some v -> Forall soft raw.
Proof.
  unfold parse_number. intros H.
  assert (X : exists sign r, raw = sign ++ r /\ match raw with
                      | c :: r => if ((c =? chPLUS) || (c =? chMINUS))%N%bool then ([c], r) else ([], raw)
                      | [] => ([], [])
                      end = (sign, r)).
  { destruct raw as [|c r]; [exists [], []; auto|]. destruct (_ || _); [exists [c], r|exists [], (c :: r)]; auto. }
  destruct X as (sign & r & -> & X). rewrite X in H. clear X.
  repeat match type of H with (if ?x then _ else _) = _ => destruct x; [discriminate|] end.
  set (clean0 := lower _) in *.
  assert (Y : Forall soft (sign ++ clean0)).
  { match type of H with match ?x with _ => _ end = _ => destruct x eqn:E1 end; [eapply py_int_soft; eauto|].
    match type of H with match ?x with _ => _ end = _ => destruct x eqn:E2 end; [eapply py_float_soft; eauto|discriminate]. }
  apply Forall_app in Y as [Y1 Y2]. apply Forall_app. split; [exact Y1|]. eapply drop_us_soft, lower_soft. exact Y2.
Qed.

(** ** Dates *)
Lemma re_end_soft w : re_end w = true -> Forall soft w.
Proof. destruct w as [|c [|]]; cbn; try discriminate; [constructor|]. intros H. apply N.eqb_eq in H. subst. repeat constructor. Qed.
Lemma digs_soft w : Forall (fun c => is_ascii_digit c = true) w -> Forall soft w.
Proof. apply Forall_impl. intros c. chr. Qed.
Lemma lit_soft k w r : lit k w = Some r -> soft k -> Forall soft r -> Forall soft w.
Proof. destruct w as [|c w]; [discriminate|]. cbn. destruct (N.eqb_spec c k) as [->|]; [|discriminate]. intros H; inversion H; subst. constructor; auto. Qed.
Definition okdig (ok : char -> char -> bool) : Prop := forall a b, ok a b = true -> soft a /\ soft b.
Lemma two_soft ok w n r : okdig ok -> two ok w = Some (n, r) -> Forall soft r -> Forall soft w.
Proof.
  intros K. destruct w as [|a [|b w]]; try discriminate. cbn. destruct (ok a b) eqn:E; [|discriminate]. intros H; inversion H; subst.
  apply K in E as [? ?]. intros. constructor; auto.
Qed.
Lemma ok_month : okdig re_month. Proof. intros a b. unfold re_month, between. chr. Qed.
Lemma ok_day : okdig re_day. Proof. intros a b. unfold re_day, between. chr. Qed.
Lemma ok_hour : okdig re_hour. Proof. intros a b. unfold re_hour, between. chr. Qed.
Lemma ok_min : okdig re_min. Proof. intros a b. unfold re_min, between. chr. Qed.
Lemma ok_sec : okdig re_sec. Proof. intros a b. unfold re_sec, re_min, between. chr. Qed.
Lemma m_date_soft w d r : m_date re_month re_day w = Some (d, r) -> Forall soft r -> Forall soft w.
Proof.
  unfold m_date. intros H Hr. destruct (drop_split is_ascii_digit w) as (y & E & F). rewrite E. apply Forall_app. split; [apply digs_soft, F|].
  clear E F y. destruct (take_while is_ascii_digit w); [discriminate|].
  destruct (lit chMINUS (drop_while is_ascii_digit w)) as [r1|] eqn:E1; [|discriminate].
  destruct (two re_month r1) as [[mo r2]|] eqn:E2; [|discriminate].
  destruct (lit chMINUS r2) as [r3|] eqn:E3; [|discriminate].
  destruct (two re_day r3) as [[da r4]|] eqn:E4; [|discriminate]. inversion H; subst.
  eapply lit_soft; [exact E1|reflexivity|]. eapply two_soft; [apply ok_month|exact E2|]. eapply lit_soft; [exact E3|reflexivity|].
  eapply two_soft; [apply ok_day|exact E4|exact Hr].
Qed.
Lemma m_time_soft w h m sc f r : m_time re_hour re_min re_sec w = Some (h, m, sc, f, r) -> Forall soft r -> Forall soft w.
Proof.
  unfold m_time. intros H Hr.
  destruct (two re_hour w) as [[h1 r1]|] eqn:E1; [|discriminate].
  destruct (lit chCOLON r1) as [r2|] eqn:E2; [|discriminate].
  destruct (two re_min r2) as [[m1 r3]|] eqn:E3; [|discriminate].
  destruct (lit chCOLON r3) as [r4|] eqn:E4; [|discriminate].
  destruct (two re_sec r4) as [[s1 r5]|] eqn:E5; [|discriminate].
  eapply two_soft; [apply ok_hour|exact E1|]. eapply lit_soft; [exact E2|reflexivity|]. eapply two_soft; [apply ok_min|exact E3|].
  eapply lit_soft; [exact E4|reflexivity|]. eapply two_soft; [apply ok_sec|exact E5|]. clear E1 E2 E3 E4 E5.
  destruct r5 as [|c r6]; [constructor|]. destruct (N.eqb_spec c chDOT) as [->|].
  - constructor; [reflexivity|]. destruct (drop_split is_ascii_digit r6) as (y & E & F).
    destruct (take_while is_ascii_digit r6); inversion H; subst.
    + inversion Hr; subst; assumption.
    + rewrite E. apply Forall_app. split; [apply digs_soft, F|exact Hr].
  - inversion H; subst. exact Hr.
Qed.
Lemma m_tz_soft w o r : m_tz w = (o, r) -> Forall soft r -> Forall soft w.
Proof.
  unfold m_tz. destruct w as [|c w]; [intros H; inversion H; auto|]. destruct ((c =? 90) || (c =? 122))%N%bool eqn:Ec.
  { intros H; inversion H; subst. intros. constructor; [|assumption]. clear H. chr. }
  destruct (_ || _ || _)%bool eqn:Ed.
  - destruct (two re_hour w) as [[h1 r1]|] eqn:E1; [|intros H; inversion H; auto].
    destruct (lit chCOLON r1) as [r2|] eqn:E2; [|intros H; inversion H; auto].
    destruct (two re_min r2) as [[m1 r3]|] eqn:E3; [|intros H; inversion H; auto].
    intros H Hr. inversion H; subst. constructor; [clear -Ed; chr|].
    eapply two_soft; [apply ok_hour|exact E1|]. eapply lit_soft; [exact E2|reflexivity|]. eapply two_soft; [apply ok_min|exact E3|exact Hr].
  - intros H; inversion H; auto.
Qed.
Lemma rfc_soft w v : parse_rfc3339 w = Ok v -> Forall soft w.
Proof.
  unfold parse_rfc3339. destruct (m_datetime w) as [[[d t] tz]|] eqn:E.
  - intros _. unfold m_datetime in E. destruct (m_date re_month re_day w) as [[d1 r]|] eqn:Ed; [|discriminate].
    eapply m_date_soft; [exact Ed|]. destruct r as [|c r]; [discriminate|]. destruct (_ || _)%bool eqn:Ec; [|discriminate].
    destruct (m_time _ _ _ r) as [[[[[h m] sc] f] r1]|] eqn:Et; [|discriminate]. destruct (m_tz r1) as [o r2] eqn:Ez.
    destruct (re_end r2) eqn:Ee; [|discriminate]. constructor; [clear -Ec; chr|].
    eapply m_time_soft; [exact Et|]. eapply m_tz_soft; [exact Ez|]. apply re_end_soft, Ee.
  - destruct (m_date re_month re_day w) as [[d1 r]|] eqn:Ed; [destruct (re_end r) eqn:Ee|].
    { intros _. eapply m_date_soft; [exact Ed|]. apply re_end_soft, Ee. }
    all: clear E Ed; destruct (m_time _ _ _ w) as [[[[[h m] sc] f] r1]|] eqn:Et; [|discriminate];
      destruct (re_end r1) eqn:E1; [|discriminate]; intros _; eapply m_time_soft; [exact Et|]; apply re_end_soft, E1.
Qed.

(** ** Strings *)
Lemma fa_firstn {A} (P : A -> Prop) n l : Forall P l -> Forall P (firstn n l).
Proof. intros H. rewrite <- (firstn_skipn n l) in H. apply Forall_app in H. apply H. Qed.
Lemma uerr_pe k st : uerr (parse_error k st) -> match k with KUnexpectedChar _ => True | _ => False end.
Proof. unfold parse_error. destruct (to_linecol _ _). cbn. destruct k; auto. Qed.
Lemma inc_n_split n : forall st b st', inc_n n st = (b, st') -> exists w, moved w st st' /\ List.length w <= n /\ (b = true -> List.length w = n) /\ p_mark st' = p_mark st.
Proof.
  induction n as [|n IH]; intros st b st' H; cbn [inc_n] in H.
  - inversion H; subst. exists []. split; [apply moved_refl; reflexivity|]. split; [cbn; lia|]. auto.
  - destruct st as [pre [|c r] mk]; cbn in H.
    + inversion H; subst. exists []. split; [apply moved_refl; reflexivity|]. split; [cbn; lia|]. split; [discriminate|reflexivity].
    + assert (X : moved [c] (mkSt pre (c :: r) mk) (mkSt (pre ++ [c]) r mk)) by (split; reflexivity).
      destruct r as [|d r].
      * inversion H; subst. exists [c]. split; [exact X|]. cbn. split; [lia|]. split; [discriminate|reflexivity].
      * apply IH in H as (w & Hw & Hl & Hb & Hm). exists ([c] ++ w). split; [eapply moved_trans; eauto|]. cbn. split; [lia|].
        split; [intros E; rewrite Hb; auto|exact Hm].
Qed.
Lemma unicode_rest b st v ex st' : peek_unicode b st = (Ok (Some (v, ex)), st') ->
  st' = st /\ exists r, p_rest st = cur st :: ex ++ r /\ Forall soft ex.
Proof.
  unfold peek_unicode, restoring_all. match goal with |- (let '(r, _) := ?m st in _) = _ -> _ => destruct (m st) as [r0 st0] eqn:E end.
  intros H; inversion H; subst; clear H. split; [reflexivity|].
  apply bind_inv in E as (c & st1 & X & E). inversion X; subst; clear X.
  destruct (negb _) eqn:Ec; [discriminate|].
  apply bind_inv in E as (c & st2 & X & E). apply bind_inv in E as (c2 & st3 & X2 & E). inversion X2; subst; clear X2.
  apply bind_inv in E as (ok & st4 & X3 & E). destruct ok; [|discriminate]. cbn [negb] in E.
  apply bind_inv in E as (ex0 & st5 & X4 & E). unfold extractM in X4. inversion X4; subst; clear X4. cbv zeta in E.
  match type of E with (if ?x then _ else _) _ = _ => destruct x; [discriminate|] end.
  destruct (py_int (extract st5) 16) eqn:Ep; [|discriminate]. destruct (_ && _)%bool; [|discriminate]. inversion E; subst; clear E.
  unfold inc_nM in X3. destruct (inc_n _ _) as [b0 st6] eqn:En. inversion X3; subst; clear X3.
  apply inc_n_split in En as (w & [Hw1 Hw2] & _ & _ & Hm).
  destruct st1 as [pre [|u r] mk]; [discriminate|]. unfold incM in X. cbn in X. inversion X; subst; clear X. cbn in *.
  assert (Ex : extract st0 = w) by (unfold extract; rewrite Hm, Hw2, skipn_length_app; reflexivity).
  rewrite Ex in *. exists (p_rest st0). split; [unfold cur; cbn; rewrite Hw1; reflexivity|]. eapply py_int_soft; eauto.
Qed.
Lemma ct_escaped b : ct T1 (parse_escaped_char b) T2.
Proof.
  unfold parse_escaped_char. apply ct_cur'. intros c. destruct (_ && _) eqn:E1; [ct|].
  destruct (escaped_value c) eqn:E2.
  { apply ct_bind with (Q := T2); [|intros; ct]. eapply ct_inc_exn; [|psts]. unfold escaped_value in E2. unfold soft, hard.
    clear E1. repeat match type of E2 with (if ?x then _ else _) = _ => destruct x eqn:? end; try discriminate; lia. }
  destruct ((c =? 117) || (c =? 85))%N%bool eqn:E3; [|ct].
  intros st Hc Hp. unfold bind at 1. destruct (peek_unicode (c =? 85)%N st) as [[[[v ex]|]|e] st1] eqn:Ep.
  - apply unicode_rest in Ep as (-> & r & Hr & Hs). unfold bind, inc_nM.
    destruct (inc_n (S (List.length ex)) st) as [b0 st2] eqn:En. apply inc_n_split in En as (w & [Hw1 Hw2] & Hl & _).
    cbn. split; [|exact I]. unfold clean. rewrite Hw2. apply tame_app; [exact Hc|].
    assert (Hw : Forall soft (firstn (List.length w) (cur st :: ex))).
    { apply fa_firstn. constructor; [subst c; clear -E3; chr|exact Hs]. }
    replace w with (firstn (List.length w) (cur st :: ex)); [exact Hw|].
    rewrite Hr in Hw1. change (cur st :: ex ++ r) with ((cur st :: ex) ++ r) in Hw1.
    assert (X : firstn (List.length w) ((cur st :: ex) ++ r) = firstn (List.length w) (w ++ p_rest st2)) by (rewrite Hw1; reflexivity).
    rewrite firstn_app in X. replace (List.length w - List.length (cur st :: ex)) with 0 in X by (cbn [List.length]; lia).
    cbn [firstn] in X. rewrite app_nil_r in X. rewrite X. rewrite firstn_app, Nat.sub_diag. cbn [firstn]. rewrite app_nil_r. apply firstn_all.
  - cbn. intros X. apply uerr_pe in X. contradiction.
  - intros _. pose proof (proj1 (proj2 (proj2 (peeks_still st))) (c =? 85)%N) as X. rewrite Ep in X. cbn in X. subst. exact Hc.
Qed.
#[local] Hint Resolve ct_escaped : ct.
Lemma soft_unit d : soft (st_unit d).
Proof. destruct d; reflexivity. Qed.
Lemma ct_string_loop n : forall d v e, (e = true -> st_basic d = true) -> ct T1 (string_loop n d v e) T2.
Proof.
  induction n as [|n IH]; intros d v e He; cbn [string_loop]; [ct|].
  assert (IHf : forall v, ct T1 (string_loop n d v false) T2) by (intros; apply IH; discriminate).
  assert (IHt : forall v, st_basic d = true -> ct T1 (string_loop n d v true) T2) by (intros; apply IH; auto).
  clear IH. pose proof (soft_unit d) as Hu.
  apply ct_cur'. intros c. destruct (negb e && bad_string_char (st_multiline d) c) eqn:E1; [ct|].
  destruct (negb e && (c =? st_unit d)%N) eqn:E2.
  { apply andb_true_iff in E2 as [_ E2]. apply N.eqb_eq in E2. subst c. eapply ct_bind; [apply ct_extract|]. intros orig.
    destruct (st_multiline d).
    - eapply ct_bind; [apply ct_get|]. intros x. cbv zeta. apply ct_bind with (Q := T2).
      + apply ct_adv. intros c Hc. apply N.eqb_eq in Hc. subst. exact Hu.
      + intros _. ct.
    - apply ct_bind with (Q := T2); [|intros; ct]. eapply ct_inc; [exact Hu|psts]. }
  destruct (st_basic d && e) eqn:E3; [ct|].
  assert (Hs : soft c).
  { destruct e; cbn [negb andb] in *.
    - rewrite He in E3; [discriminate|reflexivity].
    - eapply soft_nobads; exact E1. }
  destruct (st_basic d && (c =? chBSL)%N) eqn:E4.
  { apply andb_true_iff in E4 as [E4 _]. apply ct_bind with (Q := T2); [|intros; apply IHt, E4]. eapply ct_inc_exn; [exact Hs|psts]. }
  apply ct_bind with (Q := T2); [eapply ct_inc_exn; [exact Hs|psts]|]. intros _.
  destruct e; [apply IHt; auto|apply IHf].
Qed.
Lemma ct_string_loop0 n d v : ct T1 (string_loop n d v false) T2.
Proof. apply ct_string_loop. discriminate. Qed.
#[local] Hint Resolve ct_string_loop0 : ct.
Lemma ct_skip_nl : ct T1 skip_first_newline T2.
Proof.
  unfold skip_first_newline. apply ct_cur. intros c. destruct (N.eqb_spec c chLF) as [->|].
  { eapply ct_inc_exn; [|psts]. reflexivity. }
  intros st Hc [_ Hp]. unfold bind at 1, restoring. 
  match goal with |- context[bind incM ?f st] => destruct (bind incM f st) as [[two0|e] st'] eqn:E end.
  2:{ exfalso. apply bind_inv_err in E as [E|(b & st1 & _ & E)]; [unfold incM in E; destruct (inc st); discriminate|].
      unfold bind, current, ret in E. discriminate. }
  destruct ((c =? chCR)%N && _) eqn:E2; [|cbn; split; [exact Hc|exact I]].
  apply andb_true_iff in E2 as [E2 E3]. apply N.eqb_eq in E2. subst c.
  destruct st as [pre [|u [|x r]] mk]; cbn in E; inversion E; subst; try discriminate.
  cbn in E2. subst u. apply N.eqb_eq in E3. subst x.
  assert (X : tame ((pre ++ [chCR]) ++ [chLF])) by (apply tame_app; [apply tame_app; [exact Hc|]|]; repeat constructor).
  unfold inc_n_exn, bind, inc_exn. cbn. destruct r; cbn; [intros _; exact X|split; [exact X|exact I]].
Qed.
#[local] Hint Resolve ct_skip_nl : ct.
Lemma ct_parse_string n d : ct T1 (parse_string n d) T2.
Proof.
  pose proof (soft_unit d) as Hu. unfold parse_string. apply ct_cur'. intros c.
  destruct (negb _) eqn:E; [ct|]. apply negb_false_iff, N.eqb_eq in E. subst c.
  apply ct_bind with (Q := T2); [eapply ct_inc_exn; [exact Hu|psts]|]. intros _. apply ct_cur'. intros c.
  apply ct_bind with (Q := T2); [|intros; ct].
  destruct (N.eqb_spec c (st_unit d)) as [->|]; [|ct].
  apply ct_bind with (Q := T2); [eapply ct_inc; [exact Hu|psts]|]. intros b. apply ct_cur'. intros c.
  destruct (negb b || _)%bool eqn:E; [ct|]. apply orb_false_iff in E as [_ E]. apply negb_false_iff, N.eqb_eq in E. subst c.
  apply ct_bind with (Q := T2); [eapply ct_inc_exn; [exact Hu|psts]|]. intros; ct.
Qed.
#[local] Hint Resolve ct_parse_string : ct.
Lemma ct_parse_key n : ct T1 (parse_key n) T2.
Proof. induction n as [|n IH]; cbn [parse_key]; ct. Qed.
#[local] Hint Resolve ct_parse_key : ct.
Lemma ct_seploop f : ct T1 (fun st => sep_loop (p_rest st) (p_pre st) (p_mark st) f) T2.
Proof.
  intros [pre rest mk] Hc _. cbn [p_rest p_pre p_mark]. unfold clean in Hc. cbn in Hc.
  revert f pre Hc. induction rest as [|c r IH]; intros f pre Hc; cbn [sep_loop]; [split; auto|].
  destruct (is_kv_sep c) eqn:E; [|split; auto].
  assert (Hs' : tame (pre ++ [c])) by (apply tame_app; [exact Hc|constructor; [apply soft_kvsep, E|constructor]]).
  destruct r as [|d r']; [split; auto|].
  destruct (d =? chEQ)%N; [destruct f|]; [intros _; exact Hs'|apply IH; exact Hs'|apply IH; exact Hs'].
Qed.
#[local] Hint Resolve ct_seploop : ct.
Lemma ct_sep : ct T1 parse_sep T2.
Proof. unfold parse_sep. ct. Qed.
#[local] Hint Resolve ct_sep : ct.

(** ** Values *)
Definition marked (st : pst) : Prop := p_mark st = idx st.
Lemma marked_extract p st : marked st -> extract (adv_while p st) = take_while p (p_rest st).
Proof. intros H. unfold extract, adv_while. cbn. rewrite H. unfold idx. apply skipn_length_app. Qed.
Lemma ct_signed : ct marked parse_signed_value T2.
Proof.
  intros st Hc Hm. unfold parse_signed_value, bind, adv_whileM, extractM. rewrite (marked_extract _ st Hm).
  destruct (parse_number _) as [v|] eqn:E; [|intros X; apply uerr_pe in X; contradiction].
  split; [|exact I]. unfold clean. cbn. apply tame_app; [exact Hc|]. eapply parse_number_soft; eauto.
Qed.
Lemma rstrip_soft w : Forall soft (rstrip w) -> Forall soft w.
Proof.
  intros H. unfold rstrip in H. destruct (rstrip_split py_isspace w) as (b & E & F). rewrite E. apply Forall_app. split; [exact H|].
  eapply Forall_impl; [|exact F]. apply soft_isspace.
Qed.
Definition post {A} (r : res A * pst) : Prop :=
  match r with (Ok a, st') => clean st' /\ True | (Err e, st') => uerr e -> clean st' end.
Lemma ve_soft {A} k w (f : rfcval -> M A) st : match k with KUnexpectedChar _ => False | _ => True end ->
  (Forall soft w -> forall d, post (f d st)) -> post (bind (value_error k (parse_rfc3339 w)) f st).
Proof.
  intros Hk Hf. destruct (parse_rfc3339 w) as [d|e] eqn:E.
  - pose proof (rfc_soft _ _ E) as F. apply (Hf F d).
  - apply rfc_err in E as [->|[-> _]]; unfold bind; cbn; [|intros []]. intros X. apply uerr_pe in X. destruct k; contradiction.
Qed.
Lemma post_ret {A} (a : A) st : clean st -> post (ret a st).
Proof. cbn; auto. Qed.
Lemma post_raise {A} k st : match k with KUnexpectedChar _ => False | _ => True end -> post (@raise A k st).
Proof. intros H X. apply uerr_pe in X. destruct k; contradiction. Qed.
Lemma ct_digit : ct marked parse_digit_value T2.
Proof.
  intros st Hc Hm. unfold parse_digit_value. unfold bind at 1, adv_whileM at 1. unfold bind at 1, extractM at 1.
  rewrite (marked_extract _ st Hm). set (raw := take_while _ (p_rest st)). set (st1 := adv_while _ st).
  assert (Hp : p_pre st1 = p_pre st ++ raw) by reflexivity.
  assert (Hs : Forall soft raw -> clean st1) by (intros H; unfold clean; rewrite Hp; apply tame_app; assumption).
  clearbody st1 raw. match goal with |- match ?x with _ => _ end => change (post x) end.
  assert (Hn : post ((match parse_number raw with Some v => ret (scalar_item v) | None => raise KInvalidNumber end) st1)).
  { destruct (parse_number raw) as [v|] eqn:E; [|apply post_raise; exact I]. apply post_ret, Hs. eapply parse_number_soft; eauto. }
  destruct (loose_match raw) as [[[|] [|]]|]; try exact Hn; (apply ve_soft; [exact I|]); intros F d;
    destruct d; try (apply post_raise; exact I); try (apply post_ret; auto).
  specialize (Hs F). unfold bind at 1, mark. unfold bind at 1, adv_whileM at 1. unfold bind at 1, extractM at 1.
  rewrite (marked_extract _ (set_mark st1)) by reflexivity. cbn [set_mark p_rest].
  set (traw := take_while _ (p_rest st1)). set (st2 := adv_while (fun c => negb (is_date_stop c)) (set_mark st1)).
  assert (Hc3 : Forall soft traw -> clean st2).
  { intros X. unfold clean. cbn. apply tame_app; [exact Hs|exact X]. }
  clearbody st2. destruct (rstrip traw) as [|x tp] eqn:Er.
  - apply post_ret, Hc3, rstrip_soft. rewrite Er. constructor.
  - apply ve_soft; [exact I|]. intros F2 d2. destruct d2; try (apply post_raise; exact I). apply post_ret, Hc3, rstrip_soft.
    rewrite Er. apply Forall_app in F2. apply F2.
Qed.
Lemma ct_bool b : ct T1 (parse_bool b) T2.
Proof.
  unfold parse_bool. apply ct_restore. apply ct_bind with (Q := T2); [|intros; ct].
  assert (F : Forall soft (if b then L "true" else L "false")) by (destruct b; repeat constructor).
  revert F. generalize (if b then L "true" else L "false"). intros w F. induction F as [|c w Hc F IH]; cbn [consume_all]; [ct|].
  apply ct_bind with (Q := T2); [apply ct_consume1; exact Hc|intros; exact IH].
Qed.
#[local] Hint Resolve ct_bool : ct.
Lemma ct_kv_with sb pv n b : ct T1 pv T2 -> ct T1 (key_value_with sb pv n b) T2.
Proof. intros H. unfold key_value_with. ct. Qed.
Lemma ct_marked_bind {B} (f : unit -> M B) P Q : ct marked (f tt) Q -> ct P (bind mark f) Q.
Proof. intros H st Hc Hp. unfold bind, mark. apply H; [exact Hc|reflexivity]. Qed.
Lemma ct_values sb n : ct T1 (parse_value sb n) T2 /\ (forall e p, ct T1 (array_loop sb n e p) T2) /\ (forall c t, ct T1 (inline_loop sb n c t) T2).
Proof.
  induction n as [|n (IH1 & IH2 & IH3)].
  { repeat split; intros; cbn [parse_value array_loop inline_loop]; ct. }
  split; [|split].
  - cbn [parse_value]. apply ct_marked_bind. apply ct_cur. intros c.
    repeat match goal with |- ct _ (if (c =? ?k)%N then _ else _) _ => destruct (N.eqb_spec c k) as [->|]; [ct; fail|] end.
    eapply ct_bind; [apply ct_peek|]. intros p. destruct (_ || _)%bool; [eapply ct_pre; [|apply ct_signed]; cbv beta; tauto|].
    destruct (is_ascii_digit c); [eapply ct_pre; [|apply ct_digit]; cbv beta; tauto|ct].
  - intros e p. cbn [array_loop].
    assert (Hnext : forall p : option bool, ct T1 (c <- current ;;
          if match p with Some true => (c =? chCOMMA)%N | _ => false end then
            inc_exn KUnexpectedEof ;;; array_loop sb n (e ++ [EWs [chCOMMA]]) (Some false)
          else if (c =? chRBR)%N then
            incM ;;; ret (IArray (group_values e) default_trivia false)
          else raise (KUnexpectedChar c)) T2).
    { clear p. intros p. apply ct_cur'. intros c. destruct (match p with Some true => _ | _ => _ end) eqn:Ep.
      - destruct p as [[]|]; try discriminate. apply ct_bind with (Q := T2); [eapply ct_inc_exn; [|psts]; softc|intros; ct].
      - ct. }
    eapply ct_bind; [apply ct_idx|]. intros a. apply ct_bind with (Q := T2); [ct|]. intros _.
    eapply ct_bind; [apply ct_since|]. intros ind. apply ct_cur'. intros c.
    destruct (existsb is_nl ind); [ct|]. destruct (N.eqb_spec c chHASH); [ct|]. destruct (nonempty ind); [ct|]. cbv zeta.
    match goal with |- ct _ (match _ with Some _ => _ | None => ?g end) _ => assert (Hv : ct T1 g T2) end.
    { intros st Hc _. pose proof (IH1 st Hc I) as H. destruct (parse_value sb n st) as [[v|er] st1].
      - destruct (_ && _); [intros []|]. apply IH2; [apply H|exact I].
      - destruct er as [k0 l0 c0| | | | | | | | | | | | | |]; try exact H. destruct k0; try exact H.
        destruct (_ && _ && _); [intros []|]. apply Hnext; [apply H|]; exact I. }
    destruct p as [[]|]; apply ct_weak; [apply (Hnext (Some true))| |]; exact Hv.
  - intros c t. cbn [inline_loop].
    assert (Hkv : ct T1 (key_value_with sb (parse_value sb n) n false) T2) by (apply ct_kv_with; assumption).
    unfold add_elem. ct.
Qed.
Lemma ct_value sb n : ct T1 (parse_value sb n) T2. Proof. apply ct_values. Qed.
Lemma ct_kv sb n b : ct T1 (parse_key_value sb n b) T2. Proof. apply ct_kv_with, ct_value. Qed.
#[local] Hint Resolve ct_value ct_kv : ct.

(** ** Items and tables *)
Lemma ct_item_head : ct T1 item_head T2.
Proof. unfold item_head. ct. Qed.
Lemma ct_item sb n : ct T1 (parse_item sb n) T2.
Proof.
  intros st Hc _. unfold parse_item. pose proof (ct_restore _ _ _ ct_item_head st Hc I) as H.
  destruct (restore_on_err item_head st) as [[[i| |]|e] st1]; try exact H.
  assert (G : ct T1 (kv <- parse_key_value sb n true;; ret (Some (Some (fst kv), snd kv))) T2) by ct.
  apply G; [exact Hc|exact I].
Qed.
Lemma ct_table_key n : ct T1 (parse_table_key n) T2.
Proof.
  intros st Hc _. unfold parse_table_key. pose proof (ct_parse_key n st Hc I) as H.
  destruct (parse_key n st) as [[k|e] st1]; [exact H|].
  destruct e as [k0 l0 c0| | | | | | | | | | | | | |]; try exact H. destruct k0; try exact H. intros X. apply uerr_pe in X. contradiction.
Qed.
Lemma ct_peek_table n (P : pst -> Prop) : ct P (peek_table n) T2.
Proof. unfold peek_table. eapply ct_post; [|apply ct_restoring_all]; auto. Qed.
Lemma ct_wrap r : ct T1 (wrap_append r) T2.
Proof. destruct r as [c|e]; cbn [wrap_append]; [ct|]. destruct e; ct. Qed.
#[local] Hint Resolve ct_item ct_table_key ct_peek_table ct_wrap : ct.
Lemma ct_grow {A} (m : M A) (J : str -> Prop) P Q : (forall a w, J a -> J (a ++ w)) -> good m -> ct P m Q ->
  ct (fun st => P st /\ J (p_pre st)) m (fun a st => Q a st /\ J (p_pre st)).
Proof.
  intros HJ G H st Hc [Hp Hj]. specialize (H st Hc Hp). destruct (G st) as [w [_ Hw]]. destruct (m st) as [[a|e] st1]; [|exact H].
  cbn [snd] in Hw. destruct H as [H1 H2]. split; [exact H1|split; [exact H2|]]. rewrite Hw. apply HJ, Hj.
Qed.
Definition opened (a : str) : Prop := exists x y, a = x ++ [chLBR; chLBR] ++ y.
Lemma opened_grow a w : opened a -> opened (a ++ w).
Proof. intros (x & y & ->). exists x, (y ++ w). rewrite <- !app_assoc. reflexivity. Qed.
Lemma ct_inc_rbr (J : str -> Prop) : ct (fun st => J (p_pre st) /\ cur st = chRBR) incM (fun _ st => exists p, p_pre st = p ++ [chRBR] /\ J p).
Proof.
  intros st Hc [Hj Hp]. unfold incM, inc. unfold cur in Hp. destruct (p_rest st) as [|c r] eqn:E; [discriminate|]. subst c.
  split; [apply tame_app; [exact Hc|repeat constructor]|]. exists (p_pre st). split; [reflexivity|exact Hj].
Qed.
Lemma ct_inc_lbr (J : str -> Prop) : ct (fun st => J (p_pre st) /\ cur st = chLBR) incM (fun _ st => exists p, p_pre st = p ++ [chLBR] /\ J p).
Proof.
  intros st Hc [Hj Hp]. unfold incM, inc. unfold cur in Hp. destruct (p_rest st) as [|c r] eqn:E; [discriminate|]. subst c.
  split; [apply tame_app; [exact Hc|repeat constructor]|]. exists (p_pre st). split; [reflexivity|exact Hj].
Qed.
Lemma ct_inc_after : ct (fun st => after_aot (p_pre st)) incM T2.
Proof.
  intros st Hc Ha. unfold incM, inc. destruct (p_rest st) as [|c r] eqn:E; [split; auto|]. split; [|exact I].
  apply tame_snoc; auto.
Qed.
Lemma ct_tables sb n :
  (forall p t k, ct T1 (parse_table sb n p t k) T2)
  /\ (forall f k c, ct T1 (table_loop sb n f k c) T2)
  /\ (forall f k c, ct T1 (siblings sb n f k c) T2)
  /\ (forall x m k, ct T1 (parse_aot sb n x m k) T2)
  /\ (forall l m k, ct T1 (aot_loop sb n l m k) T2).
Proof.
  induction n as [|n (IH1 & IH2 & IH3 & IH4 & IH5)].
  { repeat split; intros; cbn [parse_table table_loop siblings parse_aot aot_loop]; ct. }
  split; [|split; [|split; [|split]]]; intros; cbn [parse_table table_loop siblings parse_aot aot_loop]; unfold table_append_m; try solve [ct].
  apply ct_cur'. intros c. destruct (negb (c =? chLBR)%N) eqn:Ec; [ct|]. apply negb_false_iff, N.eqb_eq in Ec. subst c.
  eapply ct_bind; [apply ct_extract|]. intros indent.
  eapply ct_bind; [eapply ct_pre; [|apply (ct_inc_lbr (fun _ => True))]; cbv beta; auto|]. intros u; cbv beta; clear u.
  eapply ct_bind; [apply ct_end|]. intros e. destruct e; [ct|]. apply ct_cur. intros c.
  apply ct_bind with (Q := fun (b : bool) st => True /\ (b = true -> opened (p_pre st))).
  { destruct (N.eqb_spec c chLBR) as [->|]; [|apply ct_ret; intros; split; [exact I|discriminate]].
    eapply ct_bind; [eapply ct_pre; [|apply (ct_inc_lbr (fun a => exists x, a = x ++ [chLBR]))]; cbv beta|].
    - intros st [(x & Hx & _) H]. eauto.
    - intros b. destruct b; [|ct]. apply ct_ret. intros st (q & Hq & x & ->). split; [exact I|]. intros _. exists x, []. rewrite Hq, <- app_assoc. reflexivity. }
  intros is_aot.
  eapply ct_bind; [apply (ct_grow _ (fun a => is_aot = true -> opened a)); [intros a w H1 H2; apply opened_grow; auto|good|apply ct_table_key]|].
  intros key. cbv beta. eapply ct_bind; [apply ct_end|]. intros e. apply ct_cur. intros c2. destruct e; [ct|].
  destruct (negb (c2 =? chRBR)%N) eqn:Ec; [ct|]. apply negb_false_iff, N.eqb_eq in Ec. subst c2. cbv zeta. destruct (existsb _ _); [ct|].
  eapply ct_bind; [eapply ct_pre; [|apply (ct_inc_rbr (fun a => is_aot = true -> opened a))]; cbv beta; tauto|]. intros u; cbv beta; clear u.
  apply ct_cur. intros c3. eapply ct_bind; [apply ct_lossy|]. intros u; cbv beta; clear u.
  apply ct_bind with (Q := T2).
  { destruct is_aot; [|ct]. eapply ct_pre; [|apply ct_inc_after]. cbv beta. intros st [(p0 & Hp & Ho) _].
    destruct (Ho eq_refl) as (x & y & ->). exists x, y. rewrite Hp, <- !app_assoc. reflexivity. }
  intros _. ct.
Qed.
Lemma ct_table sb n p t k : ct T1 (parse_table sb n p t k) T2. Proof. apply ct_tables. Qed.
Lemma ct_aot sb n x m k : ct T1 (parse_aot sb n x m k) T2. Proof. apply ct_tables. Qed.
#[local] Hint Resolve ct_table ct_aot : ct.
Lemma ct_body sb n : forall c, ct T1 (body_loop sb n c) T2.
Proof. induction n as [|n IH]; intros; cbn [body_loop]; ct. Qed.
Lemma ct_tables_loop sb n : forall c, ct T1 (tables_loop sb n c) (fun _ st => at_end st = true).
Proof.
  induction n as [|n IH]; intros; cbn [tables_loop]; [ct|]. intros st Hc _. unfold bind at 1, endM at 1.
  destruct (at_end st) eqn:E; [split; auto|].
  match goal with |- match ?m st with _ => _ end => assert (X : ct T1 m (fun _ st => at_end st = true)) end.
  { apply ct_bind with (Q := T2); [ct|]. intros kt. apply ct_bind with (Q := T2); [ct|]. intros v.
    apply ct_bind with (Q := T2); [ct|]. intros c'. apply IH. }
  apply X; auto.
Qed.
Theorem parse_tame s d : parse s = Ok d -> tame s.
Proof.
  unfold parse, parse_gen, parse_doc. set (n := parse_fuel s). clearbody n. intros H.
  match type of H with fst (?m _) = _ => assert (X : ct T1 m (fun _ st => at_end st = true)) end.
  { apply ct_bind with (Q := T2); [apply ct_body|]. intros c. eapply ct_bind; [apply ct_tables_loop|]. intros c'. apply ct_ret. auto. }
  specialize (X (start s) tame_nil I).
  match type of H with fst (?m _) = _ => assert (G : good m) by good; specialize (G (start s)); destruct (m (start s)) as [[c|e] st] end;
    cbn [fst snd] in *; [|discriminate].
  destruct X as [Hc He]. destruct G as [w [Hw1 Hw2]]. apply at_end_rest in He. rewrite He, app_nil_r in Hw1.
  unfold clean in Hc. rewrite Hw2 in Hc. cbn in *. subst. exact Hc.
Qed.

(** ** Inside strings and comments *)
(** The control characters of TOML: U+0000-U+001F except tab, and U+007F. *)
Definition control (c : char) : bool := ((c <=? 31)%N && negb (c =? 9)%N) || (c =? 127)%N.
(** [a] ends inside a unicode escape: at most 7 characters after the letter. *)
Definition in_unicode_escape (a : str) : Prop :=
  exists x u y, a = x ++ [chBSL; u] ++ y /\ (u = 117 \/ u = 85)%N /\ List.length y < 8.
(** Every control character of [w] is a line break, if [ml], or inside a unicode
    escape, if [basic]. *)
Definition held (ml basic : bool) (w : str) : Prop :=
  forall a c b, w = a ++ c :: b -> control c = true ->
    (ml = true /\ (c = chLF \/ c = chCR)) \/ (basic = true /\ in_unicode_escape a).

Section Held.
Variables (ml basic : bool).
Lemma held_nil : held ml basic [].
Proof. intros a c b H. destruct a; discriminate. Qed.
Lemma held_snoc w c : held ml basic w -> (control c = true -> (ml = true /\ (c = chLF \/ c = chCR)) \/ (basic = true /\ in_unicode_escape w)) -> held ml basic (w ++ [c]).
Proof.
  intros H K a d b E Hd. destruct (exists_last (l := d :: b)) as (m & z & Em); [discriminate|].
  rewrite Em, app_assoc in E. apply app_inj_tail in E as [E <-].
  destruct m as [|d' m]; cbn in Em; inversion Em; subst.
  - rewrite app_nil_r in *. apply K, Hd.
  - apply (H a d' m); auto.
Qed.
Lemma held_app w v : held ml basic w -> Forall (fun c => control c = true -> ml = true /\ (c = chLF \/ c = chCR)) v -> held ml basic (w ++ v).
Proof.
  intros H F. revert w H. induction F as [|c v Hc F IH]; intros w H; [rewrite app_nil_r; exact H|].
  replace (w ++ c :: v) with ((w ++ [c]) ++ v) by (rewrite <- app_assoc; reflexivity).
  apply IH, held_snoc; [exact H|]. intros X. left. auto.
Qed.
Lemma held_escape x u v : basic = true -> (u = 117 \/ u = 85)%N -> held ml basic (x ++ [chBSL]) -> List.length v <= 9 ->
  forall v', (exists v'', u :: v' ++ v'' = v) -> held ml basic ((x ++ [chBSL]) ++ u :: v').
Proof.
  intros Hb Hu H Hl v' Hv. induction v' as [|c v' IH] using rev_ind.
  - apply held_app; [exact H|]. constructor; [|constructor]. intros X. exfalso. destruct Hu; subst; discriminate.
  - replace ((x ++ [chBSL]) ++ u :: v' ++ [c]) with (((x ++ [chBSL]) ++ u :: v') ++ [c]) by (rewrite <- !app_assoc; reflexivity).
    destruct Hv as [v'' Hv]. apply held_snoc.
    + apply IH. exists (c :: v''). rewrite <- app_assoc in Hv. exact Hv.
    + intros _. right. split; [exact Hb|]. exists x, u, v'. split; [rewrite <- app_assoc; reflexivity|]. split; [exact Hu|].
      assert (X : List.length (u :: (v' ++ [c]) ++ v'') <= 9) by (rewrite Hv; exact Hl).
      cbn in X. rewrite !app_length in X. cbn in X. lia.
Qed.
End Held.

Lemma peek_unicode_len b st v ex st' : peek_unicode b st = (Ok (Some (v, ex)), st') -> List.length ex <= 8.
Proof.
  unfold peek_unicode, restoring_all. match goal with |- (let '(r, _) := ?m st in _) = _ -> _ => destruct (m st) as [r0 st0] eqn:E end.
  intros H; inversion H; subst; clear H.
  apply bind_inv in E as (c & st1 & X & E). inversion X; subst; clear X.
  destruct (negb _) eqn:Ec; [discriminate|].
  apply bind_inv in E as (c & st2 & X & E). apply bind_inv in E as (c2 & st3 & X2 & E). inversion X2; subst; clear X2.
  apply bind_inv in E as (ok & st4 & X3 & E). destruct ok; [|discriminate]. cbn [negb] in E.
  apply bind_inv in E as (ex0 & st5 & X4 & E). unfold extractM in X4. inversion X4; subst; clear X4. cbv zeta in E.
  match type of E with (if ?x then _ else _) _ = _ => destruct x; [discriminate|] end.
  destruct (py_int (extract st5) 16) eqn:Ep; [|discriminate]. destruct (_ && _)%bool; [|discriminate]. inversion E; subst; clear E.
  unfold inc_nM in X3. destruct (inc_n _ _) as [b0 st6] eqn:En. inversion X3; subst; clear X3.
  apply inc_n_split in En as (w & [Hw1 Hw2] & Hl & _ & Hm).
  assert (Ex : extract st0 = w) by (unfold extract; rewrite Hm, Hw2; cbn; rewrite skipn_length_app; reflexivity).
  rewrite Ex. destruct b; lia.
Qed.

Definition ends (p0 : str) (P : str -> Prop) (st : pst) : Prop := exists w, p_pre st = p0 ++ w /\ P w.
Lemma nbs ml c : bad_string_char ml c = false -> control c = true -> ml = true /\ (c = chLF \/ c = chCR).
Proof. unfold bad_string_char, control, chTAB, chLF, chCR. destruct ml; cbn; lia. Qed.
Lemma inc_exn_inv k st u st' : inc_exn k st = (Ok u, st') -> p_rest st = cur st :: p_rest st' /\ p_pre st' = p_pre st ++ [cur st] /\ p_mark st' = p_mark st.
Proof.
  unfold inc_exn, inc, cur. destruct (p_rest st) as [|c [|d r]]; try discriminate. intros H; inversion H; subst. cbn. auto.
Qed.
Lemma ends_inc k st u st' p0 ml basic : inc_exn k st = (Ok u, st') -> (control (cur st) = true -> ml = true /\ (cur st = chLF \/ cur st = chCR)) ->
  ends p0 (held ml basic) st -> ends p0 (held ml basic) st'.
Proof.
  intros H K (w & Hw & Hh). apply inc_exn_inv in H as (_ & Hp & _). exists (w ++ [cur st]). split; [rewrite Hp, Hw, <- ?app_assoc; reflexivity|].
  apply held_app; [exact Hh|]. constructor; [exact K|constructor].
Qed.
Lemma unit_control d : control (st_unit d) = false.
Proof. destruct d; reflexivity. Qed.
Lemma escaped_held ml st v st' p0 : parse_escaped_char ml st = (Ok v, st') ->
  ends p0 (fun w => held ml true w /\ exists x, w = x ++ [chBSL]) st -> ends p0 (held ml true) st'.
Proof.
  intros H (w & Hw & Hh & x & ->). unfold parse_escaped_char in H. apply bind_inv in H as (c & st1 & X & H). inversion X; subst; clear X.
  destruct (ml && is_ws (cur st1)) eqn:E1.
  { apply andb_true_iff in E1 as [-> E1]. apply bind_inv in H as (tmp & st2 & X & H). unfold skip_ws_exn in X.
    destruct (_ && _) in X; [discriminate|]. inversion X; subst; clear X.
    destruct (inb chLF _); [|discriminate]. inversion H; subst; clear H.
    exists ((x ++ [chBSL]) ++ take_while is_ws (p_rest st1)). split; [cbn; rewrite Hw, <- ?app_assoc; reflexivity|].
    apply held_app; [exact Hh|]. pose proof (take_while_all is_ws (p_rest st1)) as F. eapply Forall_impl; [|exact F].
    intros a Ha Hc. split; [reflexivity|]. clear -Ha Hc. unfold is_ws, is_spaces, is_nl, control, chSP, chTAB, chLF, chCR in *. lia. }
  destruct (escaped_value (cur st1)) eqn:E2.
  { apply bind_inv in H as (u & st2 & X & H). inversion H; subst; clear H. eapply ends_inc; [exact X| |exists (x ++ [chBSL]); split; [exact Hw|exact Hh]].
    intros Hc. exfalso. clear -E2 Hc. unfold escaped_value in E2. unfold control in Hc.
    repeat match type of E2 with (if ?x then _ else _) = _ => destruct x eqn:? end; try discriminate; lia. }
  destruct ((cur st1 =? 117) || (cur st1 =? 85))%N%bool eqn:E3; [|discriminate].
  apply bind_inv in H as (u & st2 & X & H). destruct u as [[v0 ex]|]; [|discriminate].
  pose proof (peek_unicode_len _ _ _ _ _ X) as Hl. apply unicode_rest in X as (-> & r & Hr & _).
  apply bind_inv in H as (u & st2 & X & H). inversion H; subst; clear H. unfold inc_nM in X.
  destruct (inc_n (S (List.length ex)) st1) as [b0 st3] eqn:En. inversion X; subst; clear X.
  apply inc_n_split in En as (w & [Hw1 Hw2] & Hlw & _ & _).
  exists ((x ++ [chBSL]) ++ w). split; [rewrite Hw2, Hw, <- ?app_assoc; reflexivity|].
  destruct w as [|c w]; [rewrite app_nil_r; exact Hh|].
  rewrite Hr in Hw1. cbn [app] in Hw1. injection Hw1 as Hc Hx. subst c.
  eapply held_escape with (v := cur st1 :: ex); auto; [clear -E3; lia|cbn; lia|].
  exists (skipn (List.length w) ex). f_equal. cbn in Hlw.
  assert (Y : firstn (List.length w) (ex ++ r) = firstn (List.length w) (w ++ p_rest st')) by (rewrite Hx; reflexivity).
  rewrite firstn_app in Y. replace (List.length w - List.length ex) with 0 in Y by lia.
  cbn [firstn] in Y. rewrite app_nil_r, firstn_app, Nat.sub_diag in Y. cbn [firstn] in Y. rewrite app_nil_r, firstn_all in Y.
  rewrite <- Y at 1. apply firstn_skipn.
Qed.
Lemma string_loop_held n : forall d v e st r st' p0,
  string_loop n d v e st = (Ok r, st') -> (e = true -> st_basic d = true) ->
  ends p0 (fun w => held (st_multiline d) (st_basic d) w /\ (e = true -> exists x, w = x ++ [chBSL])) st ->
  ends p0 (held (st_multiline d) (st_basic d)) st' /\ exists v o, r = SStr d v o.
Proof.
  induction n as [|n IH]; intros d v e st r st' p0 H He He2; [discriminate|]. cbn [string_loop] in H.
  assert (He3 : ends p0 (held (st_multiline d) (st_basic d)) st) by (destruct He2 as (w & A & B & _); exists w; auto).
  apply bind_inv in H as (c & st1 & X & H). inversion X; subst; clear X.
  destruct (negb e && bad_string_char (st_multiline d) (cur st1)) eqn:E1; [discriminate|].
  destruct (negb e && (cur st1 =? st_unit d)%N) eqn:E2.
  { apply andb_true_iff in E2 as [_ E2]. apply N.eqb_eq in E2.
    apply bind_inv in H as (orig & st2 & X & H). inversion X; subst; clear X.
    destruct (st_multiline d) eqn:Em.
    - apply bind_inv in H as (x & st3 & X & H). inversion X; subst; clear X. cbv zeta in H.
      apply bind_inv in H as (u & st4 & X & H). unfold adv_whileM in X. inversion X; subst; clear X.
      set (p := fun x : N => (x =? st_unit d)%N) in *.
      assert (G : ends p0 (held true (st_basic d)) (adv_while p st3)).
      { destruct He3 as (w & Hw & Hh). exists (w ++ take_while p (p_rest st3)). split; [cbn; rewrite Hw, <- ?app_assoc; reflexivity|].
        apply held_app; [exact Hh|]. pose proof (take_while_all p (p_rest st3)) as F. eapply Forall_impl; [|exact F].
        intros a Ha Hc. exfalso. apply N.eqb_eq in Ha. subst a. rewrite unit_control in Hc. discriminate. }
      repeat match type of H with (if ?x then _ else _) _ = _ => destruct x end; try discriminate; try (inversion H; subst; split; [exact G|eauto]).
      eapply IH in H; [rewrite Em in H; exact H|discriminate|]. destruct G as (w & A & B). exists w. rewrite Em. split; [exact A|split; [exact B|discriminate]].
    - apply bind_inv in H as (b & st3 & X & H). inversion H; subst; clear H. split; [|eauto].
      destruct He3 as (w & Hw & Hh). unfold incM, inc in X. unfold cur in E2. destruct (p_rest st2) as [|c rr]; [destruct d; discriminate|].
      subst c. inversion X; subst; clear X. exists (w ++ [st_unit d]). split; [cbn; rewrite Hw, <- ?app_assoc; reflexivity|].
      apply held_app; [exact Hh|]. constructor; [|constructor]. intros Hc. rewrite unit_control in Hc. discriminate. }
  destruct (st_basic d && e) eqn:E3.
  { apply andb_true_iff in E3 as [E3 ->]. apply bind_inv in H as (v1 & st2 & X & H). rewrite E3 in *.
    eapply escaped_held in X; [|destruct He2 as (w & A & B & C); exists w; split; [exact A|split; [exact B|apply C; reflexivity]]].
    eapply IH in H; [rewrite E3 in H; exact H|discriminate|]. rewrite E3. destruct X as (w & A & B). exists w. split; [exact A|split; [exact B|discriminate]]. }
  assert (Hs : control (cur st1) = true -> st_multiline d = true /\ (cur st1 = chLF \/ cur st1 = chCR)).
  { destruct e; cbn [negb andb] in *; [rewrite He in E3; [discriminate|reflexivity]|]. apply nbs, E1. }
  destruct (st_basic d && (cur st1 =? chBSL)%N) eqn:E4.
  - apply andb_true_iff in E4 as [E4 E5]. apply N.eqb_eq in E5. apply bind_inv in H as (u & st2 & X & H).
    eapply IH in H; [exact H|auto|]. destruct He3 as (w & A & B). apply inc_exn_inv in X as (_ & Hp & _). rewrite E5 in Hp.
    exists (w ++ [chBSL]). split; [rewrite Hp, A, <- ?app_assoc; reflexivity|]. split; [|eauto].
    apply held_app; [exact B|]. constructor; [discriminate|constructor].
  - apply bind_inv in H as (u & st2 & X & H). eapply IH in H; [exact H|exact He|].
    pose proof (ends_inc _ _ _ _ _ _ _ X Hs He3) as (w & A & B). exists w. split; [exact A|]. split; [exact B|].
    intros ->. rewrite He in E3; [discriminate|reflexivity].
Qed.
Lemma skip_nl_held st u st' p0 b : skip_first_newline st = (Ok u, st') -> ends p0 (held true b) st -> ends p0 (held true b) st'.
Proof.
  intros H He. unfold skip_first_newline in H. apply bind_inv in H as (c & st1 & X & H). inversion X; subst; clear X.
  destruct (N.eqb_spec (cur st1) chLF) as [E|E].
  { eapply ends_inc; [exact H| |exact He]. auto. }
  apply bind_inv in H as (two0 & st2 & X & H). unfold restoring in X.
  match type of X with (let '(r, _) := ?m st1 in _) = _ => destruct (m st1) as [r0 st3] eqn:Em end. inversion X; subst; clear X.
  destruct ((cur st1 =? chCR)%N && _) eqn:E2.
  - apply andb_true_iff in E2 as [E2 E3]. apply N.eqb_eq in E2.
    destruct st1 as [pre [|u0 [|x rr]] mk]; cbn in Em; inversion Em; subst; try discriminate.
    cbn in E2. subst u0. apply N.eqb_eq in E3. subst x.
    destruct He as (w & A & B). cbn in A. subst pre. unfold inc_n_exn, bind, inc_exn in H. cbn in H.
    destruct rr; [discriminate|]. inversion H; subst; clear H. exists ((w ++ [chCR]) ++ [chLF]). cbn. rewrite !app_assoc. split; [reflexivity|].
    apply held_app; [apply held_app; [exact B|]|]; (constructor; [auto|constructor]).
  - inversion H; subst. exact He.
Qed.
(** A string token: no raw control character except line breaks in multi-line
    strings and white space inside a unicode escape. *)
Lemma parse_string_held n d st r st' : st_multiline d = false -> parse_string n d st = (Ok r, st') ->
  exists w d' v o, moved w st st' /\ r = SStr d' v o /\ st_basic d' = st_basic d /\ held (st_multiline d') (st_basic d') w.
Proof.
  intros Hd H. pose proof (good_parse_string n d st) as G. rewrite H in G. cbn [snd] in G. destruct G as [w0 Hw0].
  assert (X : exists d' v o, r = SStr d' v o /\ st_basic d' = st_basic d /\ ends (p_pre st) (held (st_multiline d') (st_basic d')) st').
  2:{ destruct X as (d' & v & o & -> & Hb & w & A & B). exists w0, d', v, o. split; [exact Hw0|]. split; [reflexivity|]. split; [exact Hb|].
      destruct Hw0 as [_ Hw0]. rewrite A in Hw0. apply app_inv_head in Hw0. subst. exact B. }
  clear w0 Hw0. unfold parse_string in H. apply bind_inv in H as (c & st1 & X & H). inversion X; subst; clear X.
  destruct (negb _) eqn:E; [discriminate|]. apply negb_false_iff, N.eqb_eq in E.
  assert (Hu : forall ml, control (cur st1) = true -> ml = true /\ (cur st1 = chLF \/ cur st1 = chCR)) by (intros ml X; rewrite E, unit_control in X; discriminate).
  apply bind_inv in H as (u & st2 & X & H).
  assert (K0 : forall ml b, ends (p_pre st1) (held ml b) st2).
  { intros ml b. eapply ends_inc; [exact X|apply Hu|]. exists []. split; [rewrite app_nil_r; reflexivity|apply held_nil]. }
  clear X. apply bind_inv in H as (c & st3 & X & H). inversion X; subst; clear X.
  apply bind_inv in H as (dd & st4 & X & H).
  assert (K1 : (forall ml b, ends (p_pre st1) (held ml b) st4) /\ match dd with Some d' => st_basic d' = st_basic d | None => True end).
  { destruct (N.eqb_spec (cur st3) (st_unit d)) as [E2|E2]; [|inversion X; subst; split; [exact K0|reflexivity]].
    apply bind_inv in X as (b & st5 & Y & X).
    assert (K2 : forall ml b, ends (p_pre st1) (held ml b) st5).
    { intros ml b0. destruct (K0 ml b0) as (w & A & B). unfold incM, inc in Y. unfold cur in E2.
      destruct (p_rest st3) as [|c0 rr]; [destruct d; discriminate|]. subst c0. inversion Y; subst; clear Y. exists (w ++ [st_unit d]). cbn. split; [rewrite A, <- ?app_assoc; reflexivity|].
      apply held_app; [exact B|]. constructor; [|constructor]. intros Hc. rewrite unit_control in Hc. discriminate. }
    apply bind_inv in X as (c & st6 & Y2 & X). inversion Y2; subst; clear Y2.
    destruct (negb b || _)%bool eqn:E3; [inversion X; subst; split; [exact K2|exact I]|].
    apply orb_false_iff in E3 as [_ E3]. apply negb_false_iff, N.eqb_eq in E3.
    apply bind_inv in X as (u1 & st7 & Y2 & X). inversion X; subst; clear X. split; [|destruct d; reflexivity].
    intros ml b0. eapply ends_inc; [exact Y2| |apply K2]. intros Hc. rewrite E3, unit_control in Hc. discriminate. }
  clear X K0. destruct K1 as [K1 Kb]. destruct dd as [d'|].
  - apply bind_inv in H as (u1 & st5 & X & H). inversion X; subst; clear X.
    apply bind_inv in H as (u2 & st6 & X & H).
    assert (K2 : ends (p_pre st1) (held (st_multiline d') (st_basic d')) st6).
    { destruct (st_multiline d'); [eapply skip_nl_held; [exact X|]|inversion X; subst]; apply (K1 _ (st_basic d')). }
    eapply string_loop_held in H; [|discriminate|].
    + destruct H as [A (v & o & ->)]. exists d', v, o. split; [reflexivity|]. split; [exact Kb|exact A].
    + destruct K2 as (w & A & B). exists w. split; [exact A|]. split; [exact B|discriminate].
  - inversion H; subst. exists d, [], []. split; [reflexivity|]. split; [reflexivity|]. apply K1.
Qed.

(** A comment token contains no control character at all. *)
Lemma comment_control b st cws cm tr st' : parse_comment_trail b st = (Ok (cws, cm, tr), st') -> Forall (fun c => control c = false) cm.
Proof.
  intros E. unfold parse_comment_trail in E. apply bind_inv in E as (e & st1 & E1 & E). unfold endM in E1. inversion E1; subst; clear E1.
  destruct (at_end st1) eqn:Ee; [inversion E; subst; constructor|].
  apply bind_inv in E as (u & st2 & _ & E). apply bind_inv in E as (u2 & st3 & E3 & E).
  apply bind_inv in E as (e & st4 & E4 & E). inversion E4; subst; clear E4.
  apply bind_inv in E as (c & st5 & E5 & E). inversion E5; subst; clear E5.
  apply bind_inv in E as ([cws' cm'] & st6 & E6 & E). apply bind_inv in E as (tr' & st7 & E7 & E). inversion E; subst; clear E E7.
  destruct (at_end st5 || (cur st5 =? chLF)%N)%bool eqn:Ea.
  { inversion E6; subst. constructor. }
  destruct (N.eqb_spec (cur st5) chHASH) as [Eh|]; [|discriminate].
  apply bind_inv in E6 as (? & ? & X & E6). inversion X; subst; clear X.
  apply bind_inv in E6 as (? & ? & X & E6). inversion X; subst; clear X.
  apply bind_inv in E6 as (? & st8 & X & E6). apply bind_inv in E6 as (? & st9 & Y & E6). inversion Y; subst; clear Y.
  apply bind_inv in E6 as (e & st10 & Y & E6). inversion Y; subst; clear Y.
  apply bind_inv in E6 as (c & st11 & Y & E6). inversion Y; subst; clear Y.
  apply bind_inv in E6 as (? & st12 & Y & E6). destruct (_ || _)%bool in Y; [|discriminate]. inversion Y; subst; clear Y.
  apply bind_inv in E6 as (? & st13 & Y & E6). unfold extractM in Y. inversion Y; subst; clear Y.
  apply bind_inv in E6 as (? & st14 & Y & E6). inversion Y; subst; clear Y. inversion E6; subst; clear E6.
  unfold incM, inc in X. unfold cur in Eh. cbn in X. match type of X with context[p_rest ?y] => destruct (p_rest y) as [|h rest]; [discriminate|] end. subst h. inversion X; subst; clear X.
  unfold extract, adv_while. cbn. rewrite <- app_assoc. cbn [app]. rewrite skipn_length_app. constructor; [reflexivity|].
  pose proof (take_while_all (fun c => negb (is_nl c) && negb (bad_comment_char c))%bool rest) as F. eapply Forall_impl; [|exact F].
  intros a Ha. clear -Ha. unfold is_nl, bad_comment_char, control, chLF, chCR, chTAB in *. lia.
Qed.
Lemma comment_refused b st w c rest : p_rest st = chHASH :: w ++ c :: rest -> Forall (fun x => is_nl x = false) w ->
  control c = true -> is_nl c = false -> fails (parse_comment_trail b st).
Proof.
  intros Hr Hw Hc Hn. destruct (parse_comment_trail b st) as [[[[cws cm] tr]|e] st'] eqn:E; [|exists e, st'; reflexivity]. exfalso.
  unfold parse_comment_trail in E. apply bind_inv in E as (e & st1 & E1 & E). unfold endM in E1. inversion E1; subst; clear E1.
  unfold at_end in E. rewrite Hr in E.
  apply bind_inv in E as (u & st2 & X & E). inversion X; subst; clear X. apply bind_inv in E as (u2 & st3 & X & E).
  unfold adv_whileM in X. inversion X; subst; clear X.
  assert (Ea : adv_while is_blank (set_mark st1) = set_mark st1).
  { unfold adv_while, set_mark. cbn [p_rest p_pre p_mark]. rewrite Hr. cbn [take_while drop_while].
    change (is_blank chHASH) with false. cbn iota. rewrite app_nil_r. reflexivity. }
  rewrite Ea in E. clear Ea. set (st2 := set_mark st1) in *. assert (Hr2 : p_rest st2 = chHASH :: w ++ c :: rest) by exact Hr. clearbody st2.
  apply bind_inv in E as (e & st4 & E4 & E). inversion E4; subst; clear E4.
  apply bind_inv in E as (ch & st5 & E5 & E). inversion E5; subst; clear E5.
  apply bind_inv in E as ([cws' cm'] & st6 & E6 & E). clear E.
  assert (Ec : cur st5 = chHASH) by (unfold cur; rewrite Hr2; reflexivity).
  assert (Ee : at_end st5 = false) by (unfold at_end; rewrite Hr2; reflexivity).
  rewrite Ec, Ee in E6. change (false || (chHASH =? chLF)%N)%bool with false in E6. change (chHASH =? chHASH)%N with true in E6. cbn iota in E6.
  apply bind_inv in E6 as (? & ? & X & E6). inversion X; subst; clear X.
  apply bind_inv in E6 as (? & ? & X & E6). inversion X; subst; clear X.
  apply bind_inv in E6 as (? & st8 & X & E6). unfold incM, inc in X. cbn [set_mark p_rest] in X.
  match type of X with context[p_rest ?y] => rewrite Hr2 in X end. inversion X; subst; clear X.
  apply bind_inv in E6 as (? & st9 & Y & E6). inversion Y; subst; clear Y.
  apply bind_inv in E6 as (e & st10 & Y & E6). inversion Y; subst; clear Y.
  apply bind_inv in E6 as (ch & st11 & Y & E6). inversion Y; subst; clear Y.
  apply bind_inv in E6 as (? & st12 & Y & E6). clear E6.
  assert (G : exists x y, drop_while (fun c => negb (is_nl c) && negb (bad_comment_char c))%bool (w ++ c :: rest) = x :: y /\ is_nl x = false).
  { clear -Hw Hc Hn. induction Hw as [|x w Hx Hw IH]; cbn [app drop_while].
    - exists c, rest. rewrite Hn. cbn [negb andb]. 
      replace (bad_comment_char c) with true; [auto|]. symmetry. clear -Hc. unfold control, bad_comment_char, chTAB in *. lia.
    - rewrite Hx. cbn [negb andb]. destruct (bad_comment_char x); cbn [negb]; [|exact IH]. eauto. }
  destruct G as (x9 & y & G & Gx). unfold at_end, cur, adv_while in Y. cbn [p_rest] in Y. rewrite G in Y. rewrite Gx in Y. discriminate.
Qed.
Lemma literal_no_control n st v o st' w c :
  parse_string n SLL st = (Ok (SStr SLL v o), st') -> moved w st st' -> In c w -> control c = false.
Proof.
  intros H [Hm Hp] Hc. destruct (parse_string_held n SLL st _ st' eq_refl H) as (w0 & d' & v' & o' & [Hm' Hp'] & E & Hb & Hh).
  inversion E; subst d'. rewrite Hp in Hp'. apply app_inv_head in Hp'. subst w0.
  apply not_true_is_false. intros X. apply in_split in Hc as (a & b & Ew). destruct (Hh a c b Ew X) as [[Y _]|[Y _]]; discriminate.
Qed.
Lemma parse_no_hard s d : parse s = Ok d -> (forall x y, s <> x ++ [chLBR; chLBR] ++ y) -> Forall (fun c => hard c = false) s.
Proof.
  intros H K. apply Forall_forall. intros c Hc. apply not_true_is_false. intros X. apply in_split in Hc as (a & b & Es).
  destruct (parse_tame s d H a c b Es X) as (x & y & Ea). apply (K x (y ++ [chRBR] ++ c :: b)). rewrite Es, Ea, <- !app_assoc. reflexivity.
Qed.
