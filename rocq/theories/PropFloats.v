(** Property C36: float literals and the text of floats. *)
From Verif Require Import Base Source Utils Items Container Parser Api StringRT StringApi Numbers PyVal Floats.
Open Scope nat_scope.

(** C36: [sign digits[.digits][e[sign]digits]], not an integer, integer part
    without leading zeros: read as [(-1)^neg * mantissa * 10^exponent]. *)
Theorem C36_float_literals : forall neg sg ip fp ft e et,
  fsign neg sg -> digits ip -> ip <> [] -> hd 0%N ip <> 48%N \/ List.length ip = 1 ->
  frac fp ft -> expo e et -> ft ++ et <> [] ->
  value_of (sg ++ ip ++ ft ++ et)
  = Ok (IVal (SFloat (FDec neg (dvalue (ip ++ fp)) (e - Z.of_nat (List.length fp))%Z) (sg ++ ip ++ ft ++ et)) default_trivia).
Proof. exact float_literal_ok. Qed.
Print Assumptions C36_float_literals.
Example C36_example : fsign true [chMINUS] /\ frac (L "25") (L ".25") /\ expo (-3) (L "e-03")
  /\ value_of (L "-10.25e-03") = Ok (IVal (SFloat (FDec true 1025 (-5)) (L "-10.25e-03")) default_trivia).
Proof.
  split; [constructor|]. split; [apply (fr_some (L "25")); [repeat constructor|discriminate]|]. split; [apply (ex_minus (L "03")); [repeat constructor|discriminate]|]. vm_compute. reflexivity.
Qed.

(** C36: [item(x)] writes a text that reads back as a float equal to [x], alone or
    before any delimiter. *)
Theorem C36_float_roundtrip : forall f, float_value (api_float f) = Some f /\ float_ok f (item_string (api_float f)).
Proof. exact (fun f => conj eq_refl (float_text_ok f)). Qed.
Print Assumptions C36_float_roundtrip.
Example C36_roundtrip_example : item_string (api_float (FDec true 5 (-324))) = L "-5e-324"
  /\ item_string (api_float (FDec false 12345 11)) = L "1234500000000000.0" /\ item_string (api_float (FDec false 12345 12)) = L "1.2345e+16".
Proof. repeat split; vm_compute; reflexivity. Qed.

(** Defect: [0E5] is a TOML float, but only [0e5] is accepted (parser.py:678-683
    looks for a lower-case [e]). *)
Theorem C36_zero_capital_E_refuted : exists l c,
  value_of (L "0E5") = Err (ParseErr KInvalidNumber l c) /\ exists i, value_of (L "1E5") = Ok i /\ exists j, value_of (L "0e5") = Ok j.
Proof. do 2 eexists. split; [vm_compute; reflexivity|]. eexists. split; [vm_compute; reflexivity|]. eexists. vm_compute. reflexivity. Qed.
Print Assumptions C36_zero_capital_E_refuted.
