(** Property theorems: lossless parsing (C01) and verbatim tokens (C09).

    Vocabulary: [parse s] is [tomlkit.parse(s)], [cont_string d] is [d.as_string()].
    [parse_gen true s] is the same parser with reports: it stops with [LossyE n] where
    the code is about to drop, respell or move text.  The ten places are marked
    [lossy_if] / [LossyE] in Parser.v and Container.v. *)
From Verif Require Import Base Source Utils Items Container Arrays Parser Lemmas Reader Mono TextDoc Verbatim Ordinary NoLossDoc.
Open Scope nat_scope.

(** If no report is made the text comes back, character for character. *)
Theorem C01_lossless_partial : forall s d, parse_gen true s = Ok d -> parse s = Ok d /\ cont_string d = s.
Proof.
  intros s d H. split; [|exact (strict_lossless s d H)]. pose proof (parse_strict s) as P. rewrite H in P. exact P.
Qed.
Print Assumptions C01_lossless_partial.
(** Every accepted text comes back, or a report is made. *)
Theorem C01_lossless_or_reported_partial : forall s d, parse s = Ok d -> cont_string d = s \/ exists n, parse_gen true s = Err (LossyE n).
Proof.
  intros s d H. pose proof (parse_strict s) as P. destruct (parse_gen true s) as [d'|e] eqn:E.
  - left. rewrite H in P. inversion P; subst. exact (strict_lossless s d' E).
  - destruct e; try (rewrite H in P; discriminate). right. eauto.
Qed.
Print Assumptions C01_lossless_or_reported_partial.

Definition lf : str := [chLF].
Definition sample : str :=
  L "# top" ++ lf ++ L "title = 'x' # c" ++ lf ++ L "a.b . ""c"" = [ 1, # one" ++ lf ++ L " {x=1, y = {}}, ]" ++ lf ++
  L "d = 1979-05-27 # day" ++ lf ++ lf ++ L "[ t ] # tail" ++ lf ++ L "  k = """"""m" ++ lf ++ L """"""" " ++ lf ++ L "[t.u.v]" ++ lf ++ L "[t.u.w]" ++ lf ++
  L "x.y = 0x0F" ++ lf ++ L "[[p.q]]" ++ lf ++ L "[[p.q]]" ++ lf ++ L "[p.q.r]" ++ lf ++ L "[p.z]" ++ lf.
Example C01_ex : match parse_gen true sample with Ok _ => True | _ => False end.
Proof. vm_compute. exact I. Qed.

(** Every accepted text of an ordinary shape comes back, character for character: no arrays of tables,
    headers bare and not indented, line ends LF or CR LF, no space after a date or before a comma,
    inline tables only right after an equals sign ([ordinary], Ordinary.v).  Values, keys, dotted keys,
    strings, comments, (nested) arrays and inline tables, sub-tables and out-of-order tables are free. *)
Theorem C01_ordinary_partial : forall s d, ordinary s -> parse s = Ok d -> cont_string d = s.
Proof.
  intros s d Ho H. destruct (C01_lossless_or_reported_partial s d H) as [E|[n E]]; [exact E|]. destruct (ordinary_quiet s Ho n E).
Qed.
Print Assumptions C01_ordinary_partial.
Definition sample2 : str :=
  L "# top" ++ lf ++ L "a.'b c' = [ 1, # one" ++ [chCR; chLF] ++ L " 9, [2,3], ]" ++ lf ++ L "q = {x = 1, y.z = {}}" ++ lf ++ L "[t] # tail" ++ lf ++
  L "  k = """"""m" ++ lf ++ L """"""" " ++ lf ++ L "[u.v]" ++ lf ++ L "d = 1979-05-27" ++ lf ++ L "[t.w.x]" ++ lf ++ L "[t.w.y]" ++ lf ++ L "x.y = 0x0F".
Example C01_ordinary_ex : ordinary sample2 /\ exists d, parse sample2 = Ok d.
Proof. split; [apply ordinaryb_ok; vm_compute; reflexivity|eexists; vm_compute; reflexivity]. Qed.

(** Texts that are accepted and come back changed. *)
Definition comes_back_as (s s' : str) : Prop := exists d, parse s = Ok d /\ cont_string d = s' /\ s' <> s.
Ltac witness := eexists; split; [vm_compute; reflexivity|split; [vm_compute; reflexivity|vm_compute; discriminate]].
(** An array element is dropped. *)
Theorem C01_array_refuted : comes_back_as (L "x = [{a=1]") (L "x = []").
Proof. witness. Qed.
(** A character of a header is dropped. *)
Theorem C01_header_refuted : comes_back_as (L "[[a]x") (L "[[a]]").
Proof. witness. Qed.
(** Headers are respelled. *)
Theorem C01_aot_spelling_refuted : comes_back_as (L "[[a]]" ++ lf ++ L "[[ a ]]") (L "[[a]]" ++ lf ++ L "[[a]]").
Proof. witness. Qed.
Theorem C01_aot_prefix_refuted : comes_back_as (L "[ a ]" ++ lf ++ L "[[a.b]]") (L "[ a ]" ++ lf ++ L "[[ a .b]]").
Proof. witness. Qed.
(** Blanks move or vanish. *)
Theorem C01_inline_blank_refuted : comes_back_as (L "q = {a = 1 , b = 2}") (L "q = {a = 1,  b = 2}").
Proof. witness. Qed.
Theorem C01_date_blank_refuted : comes_back_as (L "d = 1979-05-27 " ++ [chTAB] ++ L "# c") (L "d = 1979-05-27 # c").
Proof. witness. Qed.
Theorem C01_date_array_refuted : comes_back_as (L "a = [1979-05-27 , 1]") (L "a = [1979-05-27, 1]").
Proof. witness. Qed.
(** Tables are reordered. *)
Theorem C01_aot_order_refuted : comes_back_as (L "[[a]]" ++ lf ++ L "[b]" ++ lf ++ L "[[a]]" ++ lf) (L "[[a]]" ++ lf ++ L "[[a]]" ++ lf ++ L "[b]" ++ lf).
Proof. witness. Qed.
Theorem C01_table_order_refuted : comes_back_as (L "[a.b]" ++ lf ++ L "[[c]]" ++ lf ++ L "[a.d]" ++ lf) (L "[a.b]" ++ lf ++ L "[a.d]" ++ lf ++ L "[[c]]" ++ lf).
Proof. witness. Qed.
(** A line break is added; indentation is doubled. *)
Theorem C01_newline_refuted : comes_back_as (L "[a] # c" ++ [chCR] ++ L "b = 1") (L "[a] # c" ++ [chCR] ++ lf ++ L "b = 1").
Proof. witness. Qed.
Theorem C01_indent_refuted : comes_back_as (L "  [a.b.c]" ++ lf ++ L "  [a.b.d]" ++ lf) (L "  [a.b.c]" ++ lf ++ L "    [a.b.d]" ++ lf).
Proof. witness. Qed.

(** C09.  A string token of any style is kept exactly as the slice that was read,
    wherever it is read, in every parse ... *)
Theorem C09_string_verbatim : forall strict n st d x o t st',
  parse_value strict n st = (Ok (IVal (SStr d x o) t), st') ->
  p_rest st = item_string (IVal (SStr d x o) t) ++ p_rest st' /\ p_pre st' = p_pre st ++ item_string (IVal (SStr d x o) t).
Proof.
  intros strict n st d x o t st' H. destruct (scalar_verbatim _ _ _ _ _ _ H) as [M _]. rewrite (string_cws _ _ _ _ _ _ _ _ H), app_nil_r in M. exact M.
Qed.
Print Assumptions C09_string_verbatim.
(** ... and so is every other scalar; a date also takes the blanks behind it along. *)
Theorem C09_scalar_verbatim : forall strict n st v t st', parse_value strict n st = (Ok (IVal v t), st') ->
  p_rest st = scalar_string v ++ tr_cws t ++ p_rest st'.
Proof. intros strict n st v t st' H. destruct (scalar_verbatim _ _ _ _ _ _ H) as [[M _] _]. rewrite <- app_assoc in M. exact M. Qed.
Print Assumptions C09_scalar_verbatim.
(** [tomlkit.value(s)] of a scalar is rendered as [s]. *)
Theorem C09_value_verbatim : forall s v t, value_of s = Ok (IVal v t) -> s = scalar_string v ++ tr_cws t.
Proof. exact value_of_verbatim. Qed.
Print Assumptions C09_value_verbatim.
Example C09_ex : exists d x o t, value_of (L """""""" ++ lf ++ L "a\u00e9\" ++ lf ++ L "  b""""""""") = Ok (IVal (SStr d x o) t) /\ d = MLB.
Proof. do 4 eexists. split; [vm_compute; reflexivity|reflexivity]. Qed.
