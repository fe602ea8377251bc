(** Property C01 for whole TOML documents: the text comes back. *)
From Verif Require Import Base Utils Items Container Parser Api PyVal PyItem Numbers Dates Grammar Meaning Denote Document Ordinary Spelling Mono DocRun SpellingTest PropLossless.

(** C01: let [w] be a TOML document (Document.v, written without reference to the parser: tables,
    sub-tables, arrays of tables, dotted keys, inline tables, arrays, strings, dates, comments, CRLF).
    If headers spell one name in one way and those of three names or more are not indented with
    spaces ([even_headers], Spelling.v), no date is followed by a blank and no comma preceded by one,
    then [parse(w)] succeeds, its [as_string()] is [w] and its [unwrap()] is the dict [w] stands for.
    Missing: the texts Document.v leaves out; the conditions cannot all be dropped, see the
    refutations in PropLossless.v ([C01_aot_spelling_refuted], [C01_aot_prefix_refuted],
    [C01_indent_refuted], [C01_date_blank_refuted], [C01_inline_blank_refuted]). *)
Theorem C01_document_partial : forall w d sp,
  document_means w d -> even_headers sp w -> no_date_space w -> no_blank_comma w ->
  exists c, parse w = Ok c /\ cont_string c = w /\ unwrap_cont c = Some d.
Proof.
  intros w d sp H He Hd Hc. destruct (document_strict sp w d H He Hd Hc) as [c Hp]. destruct (C01_lossless_partial w c Hp) as [P S].
  destruct (document_parsed w d H) as (c' & P' & U). exists c. split; [exact P|split; [exact S|]]. congruence.
Qed.
Print Assumptions C01_document_partial.

(** A case: comments, blank lines, dotted keys that share a table, an array of tables with two elements
    and a sub-table, tables whose parent has no header, no line break at the end. *)
Definition nl : str := [10]%N.
Definition C01_document_text : str :=
  L "t = true # c" ++ nl ++ L "a.b = 1" ++ nl ++ L "a.e = 3" ++ nl ++ nl ++
  L "[s] # d" ++ nl ++ L "k = [1]" ++ nl ++
  L "  [[s.p]]" ++ nl ++ L "  n = 2" ++ nl ++
  L "[[s.p]]" ++ nl ++ L "[s.p.q]" ++ nl ++
  L "[x.y]" ++ nl ++ L "[x.z]".
Definition C01_document_value : list (str * pyv) :=
  [(L "t", PBool true); (L "a", PDict [(L "b", PInt 1); (L "e", PInt 3)]);
   (L "s", PDict [(L "k", PList [PInt 1]); (L "p", PList [PDict [(L "n", PInt 2)]; PDict [(L "q", PDict [])]])]);
   (L "x", PDict [(L "y", PDict []); (L "z", PDict [])])].
Local Ltac bl := repeat (constructor; [unfold blank_c; auto|]); constructor.
Local Ltac bare := repeat (constructor; [right; left; split; vm_compute; discriminate|]); constructor.
Local Ltac name a w z := refine (nn_bare a w z _ _ _ _); [bl|discriminate|bare|bl].
Local Ltac int1 := apply dn_int; match goal with |- int_means ?w _ => refine (im_dec [] false w w _ _ _); [constructor| |right; reflexivity]; exists [w]; split; [split; [discriminate|repeat constructor; discriminate]|split; reflexivity] end.
Local Ltac eol := exists [], [], nl; split; [reflexivity|split; [bl|split; [left; reflexivity|left; reflexivity]]].
Local Ltac nodup := repeat constructor; cbn; intros X; repeat destruct X as [X|X]; discriminate || contradiction.
Local Ltac eq_ := exists (L " "), (L " "); split; [reflexivity|split; bl].
Local Ltac note_ := repeat (constructor; [intros [X|[X _]]; [discriminate|exfalso; apply X; reflexivity]|]); constructor.
Local Ltac void := refine (bd _ _ _ [] [] [] [] _ _ _); [constructor|constructor|constructor].
Example C01_document_example : document_means C01_document_text C01_document_value.
Proof.
  refine (bd [] [] [] (L "t = true # c" ++ nl ++ L "a.b = 1" ++ nl ++ L "a.e = 3" ++ nl ++ nl) [(L "t", Value (PBool true)); (L "a", Names [(L "b", Value (PInt 1)); (L "e", Value (PInt 3))])] (skipn 30 C01_document_text) (skipn 2 C01_document_value) _ _ _); [| |nodup].
  { refine (pl_pair _ [] (L "t") [L "t"] (L " = ") (L "true") _ (L " # c" ++ nl) (L "a.b = 1" ++ nl ++ L "a.e = 3" ++ nl ++ nl) [] _ _ _ _ _ _ (put_value (L "t") (PBool true) [] _) _ _); [bl|apply km_one; name (@nil char) (L "t") (@nil char)|eq_|apply dn_true|intros []| |].
    { exists (L " "), (L "# c"), nl. split; [reflexivity|split; [bl|split; [right|left; reflexivity]]]. exists (L " c"). split; [reflexivity|note_]. }
    refine (pl_pair _ [] (L "a.b") [L "a"; L "b"] (L " = ") (L "1") (PInt 1) nl (L "a.e = 3" ++ nl ++ nl) _ ([(L "t", Value (PBool true))] ++ [(L "a", Names [(L "b", Value (PInt 1))])]) _ _ _ _ _ _ _ _); [bl| |eq_|int1| |eol|].
    { refine (km_dot (L "a") (L "a") (L "b") _ _ _); [name (@nil char) (L "a") (@nil char)|apply km_one; name (@nil char) (L "b") (@nil char)]. }
    { apply put_table; [intros [X|[]]; discriminate|]. apply (put_value (L "b") _ []). intros []. }
    refine (pl_pair _ [] (L "a.e") [L "a"; L "e"] (L " = ") (L "3") (PInt 3) nl nl _ _ _ _ _ _ _ (put_below (L "a") [L "e"] _ [(L "t", Value (PBool true))] [(L "b", Value (PInt 1))] [(L "b", Value (PInt 1)); (L "e", Value (PInt 3))] [] _) _ _); [bl| |eq_|int1| |eol|].
    { refine (km_dot (L "a") (L "a") (L "e") _ _ _); [name (@nil char) (L "a") (@nil char)|apply km_one; name (@nil char) (L "e") (@nil char)]. }
    { apply (put_value (L "e") _ [(L "b", Value (PInt 1))]). intros [X|[]]. discriminate. }
    refine (pl_void _ nl [] _ _ _ _); [eol|constructor]. }
  refine (ts_cons [] [] [] (L "s") _ (L "[s] # d" ++ nl ++ L "k = [1]" ++ nl ++ L "  [[s.p]]" ++ nl ++ L "  n = 2" ++ nl ++ L "[[s.p]]" ++ nl ++ L "[s.p.q]" ++ nl) (L "[x.y]" ++ nl ++ L "[x.z]") _ _ _).
  { refine (tb_table [] [] _ (L "s") (L "[s] # d" ++ nl) (L "k = [1]" ++ nl ++ L "  [[s.p]]" ++ nl ++ L "  n = 2" ++ nl ++ L "[[s.p]]" ++ nl ++ L "[s.p.q]" ++ nl) _ _ _).
    { exists [], (L "s"), (L " # d" ++ nl). split; [bl|split; [apply km_one; name (@nil char) (L "s") (@nil char)|split; [|reflexivity]]].
      exists (L " "), (L "# d"), nl. split; [reflexivity|split; [bl|split; [right|left; reflexivity]]]. exists (L " d"). split; [reflexivity|note_]. }
    refine (bd [] _ _ (L "k = [1]" ++ nl) [(L "k", Value (PList [PInt 1]))] (L "  [[s.p]]" ++ nl ++ L "  n = 2" ++ nl ++ L "[[s.p]]" ++ nl ++ L "[s.p.q]" ++ nl) [(L "p", PList (map PDict [[(L "n", PInt 2)]; [(L "q", PDict [])]]))] _ _ _); [| |nodup].
    { refine (pl_pair _ [] (L "k") [L "k"] (L " = ") (L "[1]") (PList [PInt 1]) nl [] [] _ _ _ _ _ _ (put_value (L "k") _ [] _) _ _); [bl|apply km_one; name (@nil char) (L "k") (@nil char)|eq_| |intros []|eol|constructor].
      apply (dn_array (L "1")). refine (em_value [] (L "1") _ [] _ _ _ _); [apply gap_ws; constructor|int1|apply em_end, gap_ws; constructor]. }
    refine (ts_cons [] _ _ (L "p") _ (L "  [[s.p]]" ++ nl ++ L "  n = 2" ++ nl ++ L "[[s.p]]" ++ nl ++ L "[s.p.q]" ++ nl) [] [] _ _); [|constructor].
    apply tb_array; [|discriminate].
    refine (ae_cons _ _ _ (L "  [[s.p]]" ++ nl) (L "  n = 2" ++ nl) _ (L "[[s.p]]" ++ nl ++ L "[s.p.q]" ++ nl) _ _ _ _).
    { exists (L "  "), (L "s.p"), nl. split; [bl|split; [|split; [eol|reflexivity]]]. refine (km_dot (L "s") (L "s") (L "p") _ _ _); [name (@nil char) (L "s") (@nil char)|apply km_one; name (@nil char) (L "p") (@nil char)]. }
    { refine (bd _ _ _ (L "  n = 2" ++ nl) [(L "n", Value (PInt 2))] [] [] _ _ _); [|constructor|nodup].
      refine (pl_pair _ (L "  ") (L "n") [L "n"] (L " = ") (L "2") (PInt 2) nl [] [] _ _ _ _ _ _ (put_value (L "n") _ [] _) _ _); [bl|apply km_one; name (@nil char) (L "n") (@nil char)|eq_|int1|intros []|eol|constructor]. }
    refine (ae_cons _ _ _ (L "[[s.p]]" ++ nl) (L "[s.p.q]" ++ nl) _ [] _ _ _ _); [| |constructor].
    { exists [], (L "s.p"), nl. split; [bl|split; [|split; [eol|reflexivity]]]. refine (km_dot (L "s") (L "s") (L "p") _ _ _); [name (@nil char) (L "s") (@nil char)|apply km_one; name (@nil char) (L "p") (@nil char)]. }
    refine (bd _ _ _ [] [] (L "[s.p.q]" ++ nl) [(L "q", PDict [])] _ _ _); [constructor| |nodup].
    refine (ts_cons _ _ _ (L "q") _ (L "[s.p.q]" ++ nl) [] [] _ _); [|constructor].
    refine (tb_table _ _ _ (L "q") (L "[s.p.q]" ++ nl) [] _ _ _); [|void].
    exists [], (L "s.p.q"), nl. split; [bl|split; [|split; [eol|reflexivity]]].
    refine (km_dot (L "s") (L "s") (L "p.q") _ _ _); [name (@nil char) (L "s") (@nil char)|]. refine (km_dot (L "p") (L "p") (L "q") _ _ _); [name (@nil char) (L "p") (@nil char)|apply km_one; name (@nil char) (L "q") (@nil char)]. }
  refine (ts_cons [] [] [] (L "x") _ (L "[x.y]" ++ nl ++ L "[x.z]") [] [] _ _); [|constructor].
  refine (tb_implicit [] [] _ (L "x") _ [(L "y", PDict []); (L "z", PDict [])] _ _ _ _); [intros []| |discriminate|nodup].
  refine (ts_cons [] _ _ (L "y") _ (L "[x.y]" ++ nl) (L "[x.z]") _ _ _).
  { refine (tb_table _ _ _ (L "y") (L "[x.y]" ++ nl) [] _ _ _); [|void]. exists [], (L "x.y"), nl. split; [bl|split; [|split; [eol|reflexivity]]].
    refine (km_dot (L "x") (L "x") (L "y") _ _ _); [name (@nil char) (L "x") (@nil char)|apply km_one; name (@nil char) (L "y") (@nil char)]. }
  refine (ts_cons [] _ _ (L "z") _ (L "[x.z]") [] [] _ _); [|constructor].
  refine (tb_table _ _ _ (L "z") (L "[x.z]") [] _ _ _); [|void]. exists [], (L "x.z"), []. split; [bl|split; [|split; [|reflexivity]]].
  - refine (km_dot (L "x") (L "x") (L "z") _ _ _); [name (@nil char) (L "x") (@nil char)|apply km_one; name (@nil char) (L "z") (@nil char)].
  - exists [], [], []. split; [reflexivity|split; [bl|split; [left; reflexivity|right; right; split; reflexivity]]].
Qed.
Example C01_document_example_even : even_headers (fun n => n) C01_document_text /\ no_date_space C01_document_text /\ no_blank_comma C01_document_text.
Proof. split; [apply evenb_ok; vm_compute; reflexivity|apply calmb_ok; vm_compute; reflexivity]. Qed.
