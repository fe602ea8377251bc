(** Property theorems: integers (C10, C11, C12).

    Vocabulary: [api_int n] is [tomlkit.item(n)] for an int; [api_int_ok n w]
    (Numbers.v) says that [tomlkit.value(w)] gives an integer item whose value is
    [n] and whose text is [w], and that the value parser does the same in front of
    any delimiter (space, tab, line break, [#], [,], [\]], [}] or the end). *)
From Verif Require Import Base Source Utils Items Container Arrays Parser Api Lemmas StringApi Numbers.
Open Scope nat_scope.

(** C10: every integer survives writing. *)
Theorem C10_integer_roundtrip : forall n : Z,
  int_value (api_int n) = Some n /\ api_int_ok n (item_string (api_int n)).
Proof. exact (fun n => conj eq_refl (dec_Z_ok n)). Qed.
Print Assumptions C10_integer_roundtrip.
Example C10_example : item_string (api_int (-1234567890123456789012345678901234567890)) = L "-1234567890123456789012345678901234567890"
  /\ item_string (api_int 0) = L "0".
Proof. split; vm_compute; reflexivity. Qed.

(** C11: well-formed literals are accepted with the positional value of their
    digits ([well_grouped]: non-empty digit groups joined by single underscores). *)
Theorem C11_literals_accepted : forall (gs : list str),
  (forall sign value, sign_of sign value -> groups_ok 10 gs ->
     List.length (join [chUND] gs) = 1 \/ hd 0%N (join [chUND] gs) <> 48%N ->
     api_int_ok (value (positional 10 (List.concat gs))) (sign ++ join [chUND] gs)) /\
  (groups_ok 16 gs -> api_int_ok (Z.of_N (positional 16 (List.concat gs))) (L "0x" ++ join [chUND] gs)) /\
  (groups_ok 8 gs -> api_int_ok (Z.of_N (positional 8 (List.concat gs))) (L "0o" ++ join [chUND] gs)) /\
  (groups_ok 2 gs -> api_int_ok (Z.of_N (positional 2 (List.concat gs))) (L "0b" ++ join [chUND] gs)).
Proof.
  exact (fun gs => conj (fun sign f Hs Hg H => dec_literal_ok sign f gs Hs Hg H)
    (conj (prefixed_literal_ok 16 gs (or_introl eq_refl))
    (conj (prefixed_literal_ok 8 gs (or_intror (or_introl eq_refl)))
          (prefixed_literal_ok 2 gs (or_intror (or_intror eq_refl)))))).
Qed.
Print Assumptions C11_literals_accepted.
(** All other digit/underscore strings are refused: misplaced underscore, leading
    zero. *)
Theorem C11_literals_rejected : forall (s : str), s <> [] ->
  (forall sign value, sign_of sign value -> dig_und 10 s ->
     ~ well_grouped 10 s \/ (1 < List.length s /\ hd 0%N s = 48%N) ->
     exists e, value_of (sign ++ s) = Err e /\ is_tomlkit_error e = true) /\
  (dig_und 16 s -> ~ well_grouped 16 s -> exists e, value_of (L "0x" ++ s) = Err e /\ is_tomlkit_error e = true) /\
  (dig_und 8 s -> ~ well_grouped 8 s -> exists e, value_of (L "0o" ++ s) = Err e /\ is_tomlkit_error e = true) /\
  (dig_und 2 s -> ~ well_grouped 2 s -> exists e, value_of (L "0b" ++ s) = Err e /\ is_tomlkit_error e = true).
Proof.
  exact (fun s Hne => conj (fun sign f Hs Hd H => dec_literal_bad sign f s Hs Hd Hne H)
    (conj (fun H => prefixed_literal_bad 16 s (or_introl eq_refl) H Hne)
    (conj (fun H => prefixed_literal_bad 8 s (or_intror (or_introl eq_refl)) H Hne)
          (fun H => prefixed_literal_bad 2 s (or_intror (or_intror eq_refl)) H Hne)))).
Qed.
Print Assumptions C11_literals_rejected.
Example C11_example :
  groups_ok 16 [L "dEad"; L "0"] /\ positional 16 (List.concat [L "dEad"; L "0"]) = 912080%N
  /\ groups_ok 10 [L "1"; L "000"] /\ positional 10 (L "1000") = 1000%N
  /\ dig_und 10 (L "1__0") /\ ~ well_grouped 10 (L "1__0") /\ ~ well_grouped 10 (L "1_").
Proof.
  assert (G : forall b s, forallb (is_digit_of b) s = true -> dig b s)
    by (intros b s H; apply Forall_forall; apply forallb_forall; exact H).
  assert (W : forall s, dig_und 10 s -> s <> [] -> und_ok 10 false s = false -> ~ well_grouped 10 s).
  { intros s H1 H2 H3 H4. apply und_ok_well in H4; auto. rewrite H3 in H4. discriminate. }
  split; [split; [discriminate|repeat constructor; discriminate]|].
  split; [reflexivity|]. split; [split; [discriminate|repeat constructor; discriminate]|].
  split; [reflexivity|].
  assert (D1 : dig_und 10 (L "1__0")) by (repeat constructor; (left; reflexivity) || (right; reflexivity)).
  assert (D2 : dig_und 10 (L "1_")) by (repeat constructor; (left; reflexivity) || (right; reflexivity)).
  split; [exact D1|]. split; apply W; auto; discriminate.
Qed.

(** C12: the item of a result [r] computed from an integer written [raw] reads back
    as [r] unless [raw] is a signed decimal and [r] is negative. *)
Theorem C12_arithmetic_text_partial : forall (raw : str) (r : Z),
  int_sign raw = false \/ (0 <= r)%Z -> api_int_ok r (int_new_raw raw r).
Proof. exact int_new_ok. Qed.
Print Assumptions C12_arithmetic_text_partial.
(** In every remaining case the text is not TOML any more (defect). *)
Theorem C12_signed_negative_refuted : forall (raw : str) (r : Z),
  int_sign raw = true -> (r < 0)%Z ->
  exists l c, value_of (int_new_raw raw r) = Err (ParseErr KInvalidNumber l c).
Proof. exact int_new_bad. Qed.
Print Assumptions C12_signed_negative_refuted.
Example C12_example : int_new_raw (L "-5") (-6) = L "--6" /\ int_sign (L "-5") = true
  /\ int_new_raw (L "0x10") (-1) = L "-1" /\ int_sign (L "0x10") = false /\ int_new_raw (L "+5") 7 = L "+7".
Proof. repeat split. Qed.
