(** C29: raw control characters are refused.

    Vocabulary (Control.v): [control c] - U+0000..U+001F except tab, or U+007F;
    [hard c] - the control characters that Python never strips as white space
    (U+0000..U+0008, U+000E..U+001B, U+007F); [in_unicode_escape a] - [a] ends
    with a backslash, a letter u or U and at most seven more characters;
    [held ml basic w] - every control character of [w] is an LF or CR, if [ml],
    or directly follows such an [a], if [basic]; [after_aot a] - [a] ends with
    "[[", something, and one closing bracket. *)
From Verif Require Import Base Source Utils Items Container Arrays Parser Lemmas Reader Control.

(** An accepted string token [w], of whatever kind and at whatever position,
    contains no raw control character, except line breaks when it is multi-line
    and characters inside a unicode escape when it is a basic string. *)
Theorem C29_strings_partial : forall n d st r st',
  st_multiline d = false -> parse_string n d st = (Ok r, st') ->
  exists w d' v o, moved w st st' /\ r = SStr d' v o /\ st_basic d' = st_basic d
    /\ held (st_multiline d') (st_basic d') w.
Proof. exact parse_string_held. Qed.
Print Assumptions C29_strings_partial.
(** So literal strings contain none at all. *)
Theorem C29_literal_strings : forall n st v o st' w c,
  parse_string n SLL st = (Ok (SStr SLL v o), st') -> moved w st st' -> In c w -> control c = false.
Proof. intros n st v o st' w c. exact (literal_no_control n st v o st' w c). Qed.
Print Assumptions C29_literal_strings.

(** A comment whose text holds a control character is refused, wherever it is. *)
Theorem C29_comments : forall with_trail st w c rest,
  p_rest st = chHASH :: w ++ c :: rest -> Forall (fun x => is_nl x = false) w ->
  control c = true -> is_nl c = false -> fails (parse_comment_trail with_trail st).
Proof. exact comment_refused. Qed.
Print Assumptions C29_comments.

(** Whole documents: whatever the text and the position, a hard control character
    in an accepted text can only stand directly after the first closing bracket
    of an array-of-tables header. *)
Theorem C29_documents_partial : forall s d a c b,
  parse s = Ok d -> s = a ++ c :: b -> hard c = true -> after_aot a.
Proof. intros s d a c b H. exact (parse_tame s d H a c b). Qed.
Print Assumptions C29_documents_partial.
(** In particular a text without two consecutive opening brackets has none. *)
Theorem C29_no_double_bracket : forall s d,
  parse s = Ok d -> (forall x y, s <> x ++ [chLBR; chLBR] ++ y) -> Forall (fun c => hard c = false) s.
Proof. exact parse_no_hard. Qed.
Print Assumptions C29_no_double_bracket.

(** The full statements are false: white space is accepted inside a unicode
    escape (a line break in a single-line string) ... *)
Theorem C29_escape_refuted : exists d, parse (L "x = ""\u" ++ [10]%N ++ L "041""") = Ok d.
Proof. eexists. vm_compute. reflexivity. Qed.
Print Assumptions C29_escape_refuted.
(** ... and any character at all is accepted in place of the second closing bracket. *)
Theorem C29_header_refuted : exists d, parse (L "[[a]" ++ [1]%N) = Ok d.
Proof. eexists. vm_compute. reflexivity. Qed.
Print Assumptions C29_header_refuted.
(** Outside strings and comments a vertical tab after a number is accepted. *)
Theorem C29_number_example : exists d, parse (L "x = 1" ++ [11]%N) = Ok d.
Proof. eexists. vm_compute. reflexivity. Qed.
Print Assumptions C29_number_example.

(** The hypotheses are met: texts that are accepted, and texts that are refused. *)
Example C29_documents_case : exists d, parse (L "x = ""a"" # c" ++ [10]%N ++ L "[t]" ++ [10]%N ++ L "y = '''a" ++ [10]%N ++ L "b'''") = Ok d.
Proof. eexists. vm_compute. reflexivity. Qed.
Example C29_strings_case : exists r st', parse_string 20 SLB (start (L """a\u0041b"" ")) = (Ok r, st').
Proof. do 2 eexists. vm_compute. reflexivity. Qed.
Example C29_refused_case : forall c, In c [0; 7; 11; 27; 31; 127]%N ->
  (exists e, parse (L "x = ""a" ++ [c] ++ L """") = Err e) /\ (exists e, parse (L "x = 1 #" ++ [c]) = Err e).
Proof.
  intros c H. cbn in H. repeat (destruct H as [<-|H]; [split; eexists; vm_compute; reflexivity|]). destruct H.
Qed.
