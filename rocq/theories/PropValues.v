(** Property C38: every TOML value text is accepted, with the meaning TOML gives it. *)
From Verif Require Import Base Utils Items Container Parser PyVal PyItem Numbers Dates Grammar Meaning Denote CompValue.

(** C38: let [denotes w v] (Denote.v, written without reference to the parser) say
    that the text [w] is a TOML 1.0 value standing for the Python value [v].  Then
    [tomlkit.value(w)] succeeds and [unwrap()] of the result is exactly [v]. *)
Theorem C38_values : forall w v, denotes w v -> exists it, value_of w = Ok it /\ unwrap it = Some v.
Proof. exact denotes_value. Qed.
Print Assumptions C38_values.

(** So a text stands for one value only. *)
Theorem C38_unambiguous : forall w v v', denotes w v -> denotes w v' -> v = v'.
Proof.
  intros w v v' H H'. destruct (denotes_value w v H) as (i & E & U). destruct (denotes_value w v' H') as (i' & E' & U'). congruence.
Qed.
Print Assumptions C38_unambiguous.

(** A case: nested, with a comment, a trailing comma, dotted keys that share a
    table, an escape, grouped
    digits and a date with a time. *)
Definition C38_text : str := L "[ 1_000 , {a.b = ""x\u0041"" , 'c d'= -0.5e2,a.e=7}, # note" ++ [10]%N ++ L " 1979-05-27 07:32:00.5Z, ]".
Definition C38_value : pyv := PList [PInt 1000; PDict [(L "a", PDict [(L "b", PStr (L "xA")); (L "e", PInt 7)]); (L "c d", PFloat (FDec true 5 1))]; PDateTime (mkDT (mkDate 1979 5 27) (mkTime 7 32 0 500000) (Some 0%Z))].
Local Ltac ws := repeat (constructor; [unfold space_c, blank_c, newline_c; auto|]); constructor.
Local Ltac bl := repeat (constructor; [unfold blank_c; auto|]); constructor.
Local Ltac bare := constructor; [right; left; split; vm_compute; discriminate|constructor].
Local Ltac dg := repeat (constructor; [reflexivity|]); constructor.
Local Ltac plain_c := apply sm_char; [discriminate|discriminate|intros [X|[X _]]; [discriminate|exfalso; apply X; reflexivity]|].
Local Ltac grp := split; [discriminate|repeat constructor; discriminate].
Example C38_example : denotes C38_text C38_value.
Proof.
  apply (dn_array (L " 1_000 , {a.b = ""x\u0041"" , 'c d'= -0.5e2,a.e=7}, # note" ++ [10]%N ++ L " 1979-05-27 07:32:00.5Z, ")).
  apply (em_value (L " ") (L "1_000") _ (L " , {a.b = ""x\u0041"" , 'c d'= -0.5e2,a.e=7}, # note" ++ [10]%N ++ L " 1979-05-27 07:32:00.5Z, ")).
  { apply gap_ws. ws. }
  { apply dn_int. refine (im_dec [] false (L "1000") (L "1_000") _ _ _); [constructor| |left; discriminate].
    exists [L "1"; L "000"]. split; [grp|split; reflexivity]. }
  apply (em_comma (L " ") (L " {a.b = ""x\u0041"" , 'c d'= -0.5e2,a.e=7}, # note" ++ [10]%N ++ L " 1979-05-27 07:32:00.5Z, ")).
  { apply gap_ws. ws. }
  apply (em_value (L " ") (L "{a.b = ""x\u0041"" , 'c d'= -0.5e2,a.e=7}") _ (L ", # note" ++ [10]%N ++ L " 1979-05-27 07:32:00.5Z, ")).
  { apply gap_ws. ws. }
  { refine (dn_inline (L "a.b = ""x\u0041"" , 'c d'= -0.5e2,a.e=7") [(L "a", Names [(L "b", Value (PStr (L "xA"))); (L "e", Value (PInt 7))]); (L "c d", Value (PFloat (FDec true 5 1)))] _).
    refine (fd_more [] (L "a.b") [L "a"; L "b"] (L " = ") (L """x\u0041""") (PStr (L "xA")) (L " ") (L " 'c d'= -0.5e2,a.e=7") [] [(L "a", Names [(L "b", Value (PStr (L "xA")))])] _ _ _ _ _ _ _ _).
    - constructor.
    - refine (km_dot (L "a") (L "a") (L "b") _ _ _); [|apply km_one]; [refine (nn_bare [] (L "a") [] _ _ _ _)|refine (nn_bare [] (L "b") [] _ _ _ _)]; try discriminate; try bare; constructor.
    - exists (L " "), (L " "). split; [reflexivity|split; bl].
    - apply (dn_string true false). exists [], (L "x\u0041"). split; [|split; reflexivity]. plain_c. refine (sm_escape true false _ _ (L "\u0041") 65%N [] [] _ _ _); [reflexivity| |constructor].
      refine (xm_u (L "0041") _ _ _); [reflexivity|dg|left; vm_compute; discriminate].
    - bl.
    - apply (put_table (L "a") [L "b"] _ [] [(L "b", Value (PStr (L "xA")))]); [intros []|]. apply (put_value (L "b") _ []). intros [].
    - refine (fd_more (L " ") (L "'c d'") [L "c d"] (L "= ") (L "-0.5e2") (PFloat (FDec true 5 1)) [] (L "a.e=7") _ ([(L "a", Names [(L "b", Value (PStr (L "xA")))])] ++ [(L "c d", Value (PFloat (FDec true 5 1)))]) _ _ _ _ _ _ _ _); [bl| | | |bl| |].
      + apply km_one. refine (nn_quoted [] false (L "'c d'") [] _ _ _ _); [bl| |bl]. exists [], (L "c d"). split; [|split; reflexivity]. do 3 plain_c. constructor.
      + exists [], (L " "). split; [reflexivity|split; bl].
      + apply dn_float. refine (fm_dec (L "-") true (L "0") (L "0") (L "5") (L ".5") 2 (L "e2") _ _ _ _ _ _ _); try discriminate.
        * constructor.
        * exists [L "0"]. split; [grp|split; reflexivity].
        * right. reflexivity.
        * refine (fc_some (L "5") (L "5") _). exists [L "5"]. split; [grp|split; reflexivity].
        * refine (xp_some 101 [] false (L "2") (L "2") _ _ _); [auto|constructor|]. exists [L "2"]. split; [grp|split; reflexivity].
        * intros (_ & X & _). discriminate.
      + apply put_value. intros [X|[]]. discriminate.
      + refine (fd_last [] (L "a.e") [L "a"; L "e"] (L "=") (L "7") (PInt 7) [] _ _ _ _ _ _ _ _); [bl| | | |bl|].
        * refine (km_dot (L "a") (L "a") (L "e") _ _ _); [|apply km_one]; [refine (nn_bare [] (L "a") [] _ _ _ _)|refine (nn_bare [] (L "e") [] _ _ _ _)]; try discriminate; try bare; constructor.
        * exists [], []. split; [reflexivity|split; bl].
        * apply dn_int. refine (im_dec [] false (L "7") (L "7") _ _ _); [constructor| |left; discriminate]. exists [L "7"]. split; [grp|split; reflexivity].
        * apply (put_below (L "a") [L "e"] _ [] [(L "b", Value (PStr (L "xA")))] [(L "b", Value (PStr (L "xA"))); (L "e", Value (PInt 7))] [(L "c d", Value (PFloat (FDec true 5 1)))]).
          apply (put_value (L "e") _ [(L "b", Value (PStr (L "xA")))]). intros [X|[]]. discriminate. }
  apply (em_comma [] (L " # note" ++ [10]%N ++ L " 1979-05-27 07:32:00.5Z, ")). { apply gap_ws. ws. }
  apply (em_value (L " # note" ++ [10]%N ++ L " ") (L "1979-05-27 07:32:00.5Z") _ (L ", ")).
  { refine (gap_comment (L " ") (L "# note") 10%N (L " ") _ _ _ _); [ws| |left; reflexivity|apply gap_ws; ws].
    exists (L " note"). split; [reflexivity|]. repeat (constructor; [intros [X|[X _]]; [discriminate|exfalso; apply X; reflexivity]|]). constructor. }
  { apply dn_datetime. refine (dtm (L "1979-05-27") (L "07:32:00.5") (L "Z") _ _ _ 32%N _ _ _ _); [|auto| |].
    - refine (dm (L "1979") (L "05") (L "27") _ _ _ _ _ _ _); try (split; [reflexivity|split; [dg|reflexivity]]). apply (valid_date_iff (mkDate 1979 5 27)). reflexivity.
    - refine (tm (L "07") (L "32") (L "00") (L ".5") _ _ _ _ _ _ _ _ _ _ _); try (split; [reflexivity|split; [dg|reflexivity]]); try (vm_compute; discriminate).
      refine (sf_some (L "5") _ _); [discriminate|dg].
    - apply (om_zulu 90%N). auto. }
  apply (em_comma [] (L " ")). { apply gap_ws. ws. } apply em_end. apply gap_ws. ws.
Qed.
