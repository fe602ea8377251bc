(** Properties C43 and C44: read, edit, write. *)
From Verif Require Import Base Utils Items Container Parser Api PyVal PyItem Wf ContOps ContText Numbers Dates DumpValue Grammar Denote Document Edit Changes Possible MadeNeat Neat Ends EditNeat EditOps EditAll DocRun DocNeat PropWritten.

(** A text that is empty or ends with a line break. *)
Definition whole_lines (w : str) : Prop := w = [] \/ exists u, w = u ++ [10]%N.

(** C44: for every TOML document [w] made of whole lines, standing for the dict [d],
    [dumps(parse(w))] is a TOML document standing for [d], by the definition of TOML in
    Document.v, which mentions neither parser nor printer.
    Missing: texts whose last line has no line break, and the documents Document.v
    leaves out. *)
Theorem C44_rewritten_partial : forall w d, document_means w d -> whole_lines w ->
  exists c, parse w = Ok c /\ unwrap_cont c = Some d /\ document_means (cont_string c) d.
Proof.
  intros w d H Hw. destruct (document_neat w d H (or_intror Hw)) as (c & E & U & N). exists c. split; [exact E|]. split; [exact U|apply neat_text, N].
Qed.
Print Assumptions C44_rewritten_partial.

(** C43: read a TOML document made of whole lines, standing for [d]; then perform any
    sequence of such edits; then write.  Every edit succeeds; the text is a TOML document;
    the dict it stands for is the one that the same edits make of [d]: nothing else has changed
    (Changes.v; numbers, strings and so on are replaced by equal ones); and reading the text again gives that dict.
    Missing: the other edits, and the documents C44 leaves out. *)
Theorem C43_edits_partial : forall w d es c, document_means w d -> whole_lines w -> parse w = Ok c -> possible c es ->
  exists c' d', edit_all c es = Ok c' /\ history es d d' /\ document_means (cont_string c') d' /\
    exists c2, parse (cont_string c') = Ok c2 /\ unwrap_cont c2 = Some d'.
Proof.
  intros w d es c H Hw E P. destruct (document_neat w d H (or_intror Hw)) as (c0 & E0 & _ & N). rewrite E in E0. injection E0 as <-.
  destruct (edits_neat es c d (parsed_ok w c E) N (possible_legal es c d (parsed_ok w c E) N P)) as (c' & d' & Ed & _ & N' & Hi). exists c', d'. pose proof (neat_text c' d' N') as T. split; [exact Ed|]. split; [exact Hi|]. split; [exact T|apply document_parsed, T].
Qed.
Print Assumptions C43_edits_partial.

(** The same for a new document ([tomlkit.document()]): its text is a TOML document for
    the keys and values assigned. *)
Theorem C43_new_partial : forall es, possible (empty_cont false) es ->
  exists c' d', edit_all (empty_cont false) es = Ok c' /\ history es [] d' /\ document_means (cont_string c') d' /\
    exists c2, parse (cont_string c') = Ok c2 /\ unwrap_cont c2 = Some d'.
Proof.
  intros es P. apply (C43_edits_partial [] []); [|left; reflexivity|reflexivity|exact P]. apply (bd [] [] [] [] [] [] []); constructor.
Qed.
Print Assumptions C43_new_partial.

(** Without a line break at the end: an assignment below "a.b = 1" spoils the text. *)
Theorem C43_last_line_refuted : exists w c c', parse w = Ok c /\ possible c [([], ESet (L "c") (PInt 1))] /\ edit_all c [([], ESet (L "c") (PInt 1))] = Ok c' /\ cont_string c' = L "a.b = 1c = 1" ++ [10]%N /\
  (forall c2, parse (cont_string c') <> Ok c2) /\ document_means w [(L "a", PDict [(L "b", PInt 1)])].
Proof.
  exists (L "a.b = 1"). eexists _, _. split; [vm_compute; reflexivity|]. split.
  { split; [|intros; exact I]. eexists _, _. split; [reflexivity|]. apply po_value; [apply pf_scalar; exact I|reflexivity|]. left. vm_compute. intros [X|[]]. discriminate. }
  split; [vm_compute; reflexivity|]. split; [vm_compute; reflexivity|]. split; [intros c2; vm_compute; discriminate|].
  refine (bd [] [] [] (L "a.b = 1") [(L "a", Names [(L "b", Value (PInt 1))])] [] [] _ _ _); [|constructor|repeat constructor; intros []].
  refine (pl_pair _ [] (L "a.b") [L "a"; L "b"] (L " = ") (L "1") (PInt 1) [] [] _ _ _ _ _ _ _ _ _ _); [constructor| | | | | |constructor].
  - refine (km_dot (L "a") (L "a") (L "b") _ _ _); [|apply km_one]; [refine (nn_bare [] (L "a") [] _ _ _ _)|refine (nn_bare [] (L "b") [] _ _ _ _)];
      first [discriminate|apply Forall_nil|apply Forall_cons; [right; left; split; vm_compute; discriminate|apply Forall_nil]].
  - exists (L " "), (L " "). split; [reflexivity|]. split; (constructor; [unfold blank_c; auto|constructor]).
  - apply dn_int. refine (im_dec [] false (L "1") (L "1") _ _ _); [constructor| |right; reflexivity]. exists [L "1"]. split; [split; [discriminate|repeat constructor; discriminate]|split; reflexivity].
  - apply (put_table (L "a") [L "b"] _ []); [intros []|]. apply (put_value (L "b") _ []). intros [].
  - exists [], [], []. split; [reflexivity|]. split; [constructor|]. split; [left; reflexivity|right; right; split; reflexivity].
Qed.
Print Assumptions C43_last_line_refuted.

(** A case: a document with a table, an array of tables and comments; two assignments,
    a new key in an indented table, a deletion in an element, a new key at the top. *)
Definition nl : str := [10]%N.
Definition C43_text : str := L "t = true # c" ++ nl ++ L "  [s]" ++ nl ++ L "  k = 1" ++ nl ++ L "[[p]]" ++ nl ++ L "n = 2" ++ nl.
Definition C43_value : list (str * pyv) := [(L "t", PBool true); (L "s", PDict [(L "k", PInt 1)]); (L "p", PList [PDict [(L "n", PInt 2)]])].
Definition C43_edits : list (list pstep * eop) :=
  [([], ESet (L "t") (PInt 5)); ([Edit.Key (L "s")], ESet (L "k") (PList [PInt 1; PStr (L "x")])); ([Edit.Key (L "s")], ESet (L "new key") (PStr (L "v"))) ; ([Edit.Key (L "p"); Index 0], EDel (L "n")); ([], ESet (L "q") (PBool true))].
Local Ltac bl := repeat (constructor; [unfold blank_c; auto|]); constructor.
Local Ltac bare := repeat (constructor; [right; left; split; vm_compute; discriminate|]); constructor.
Local Ltac name a w z := refine (nn_bare a w z _ _ _ _); [bl|discriminate|bare|bl].
Local Ltac int1 := apply dn_int; match goal with |- int_means ?w _ => refine (im_dec [] false w w _ _ _); [constructor| |right; reflexivity]; exists [w]; split; [split; [discriminate|repeat constructor; discriminate]|split; reflexivity] end.
Local Ltac eol := exists [], [], nl; split; [reflexivity|split; [bl|split; [left; reflexivity|left; reflexivity]]].
Local Ltac nodup := repeat constructor; cbn; intros X; repeat destruct X as [X|X]; discriminate || contradiction.
Local Ltac eq_ := exists (L " "), (L " "); split; [reflexivity|split; bl].
Local Ltac note_ := repeat (constructor; [intros [X|[X _]]; [discriminate|exfalso; apply X; reflexivity]|]); constructor.
Example C43_example_document : document_means C43_text C43_value /\ whole_lines C43_text.
Proof.
  split; [|right; exists (removelast C43_text); vm_compute; reflexivity].
  refine (bd [] [] [] (L "t = true # c" ++ nl) [(L "t", Value (PBool true))] (skipn 13 C43_text) (skipn 1 C43_value) _ _ _); [| |nodup].
  { refine (pl_pair _ [] (L "t") [L "t"] (L " = ") (L "true") _ (L " # c" ++ nl) [] [] _ _ _ _ _ _ (put_value (L "t") (PBool true) [] _) _ _); [bl|apply km_one; name (@nil char) (L "t") (@nil char)|eq_|apply dn_true|intros []| |constructor].
    exists (L " "), (L "# c"), nl. split; [reflexivity|split; [bl|split; [right|left; reflexivity]]]. exists (L " c"). split; [reflexivity|note_]. }
  refine (ts_cons [] [] [] (L "s") _ (L "  [s]" ++ nl ++ L "  k = 1" ++ nl) (L "[[p]]" ++ nl ++ L "n = 2" ++ nl) _ _ _).
  { refine (tb_table [] [] _ (L "s") (L "  [s]" ++ nl) (L "  k = 1" ++ nl) _ _ _).
    { exists (L "  "), (L "s"), nl. split; [bl|split; [apply km_one; name (@nil char) (L "s") (@nil char)|split; [eol|reflexivity]]]. }
    refine (bd [] _ _ (L "  k = 1" ++ nl) [(L "k", Value (PInt 1))] [] [] _ _ _); [|constructor|nodup].
    refine (pl_pair _ (L "  ") (L "k") [L "k"] (L " = ") (L "1") (PInt 1) nl [] [] _ _ _ _ _ _ (put_value (L "k") _ [] _) _ _); [bl|apply km_one; name (@nil char) (L "k") (@nil char)|eq_|int1|intros []|eol|constructor]. }
  refine (ts_cons [] _ _ (L "p") _ (L "[[p]]" ++ nl ++ L "n = 2" ++ nl) [] [] _ _); [|constructor].
  apply (tb_array [] [] [] (L "p") _ [[(L "n", PInt 2)]]); [|discriminate].
  refine (ae_cons _ _ _ (L "[[p]]" ++ nl) (L "n = 2" ++ nl) _ [] _ _ _ _); [| |constructor].
  { exists [], (L "p"), nl. split; [bl|split; [|split; [eol|reflexivity]]]. apply km_one; name (@nil char) (L "p") (@nil char). }
  refine (bd _ _ _ (L "n = 2" ++ nl) [(L "n", Value (PInt 2))] [] [] _ _ _); [|constructor|nodup].
  refine (pl_pair _ [] (L "n") [L "n"] (L " = ") (L "2") (PInt 2) nl [] [] _ _ _ _ _ _ (put_value (L "n") _ [] _) _ _); [bl|apply km_one; name (@nil char) (L "n") (@nil char)|eq_|int1|intros []|eol|constructor].
Qed.
Definition C43_read : container := match parse C43_text with Ok c => c | Err _ => empty_cont true end.
Local Ltac fine := repeat first [apply pf_list; repeat constructor | apply pf_scalar; exact I].
Example C43_example : possible C43_read C43_edits /\
  exists c', edit_all C43_read C43_edits = Ok c' /\ cont_string c' =
    L "t = 5 # c" ++ nl ++ L "q = true" ++ nl ++ L "  [s]" ++ nl ++ L "  k = [1, ""x""]" ++ nl ++ L "  ""new key"" = ""v""" ++ nl ++ L "[[p]]" ++ nl.
Proof.
  split; [|eexists; split; [vm_compute; reflexivity|vm_compute; reflexivity]].
  repeat (split; [|intros c' E; vm_compute in E; injection E as <-]); try exact I; eexists _, _; (split; [vm_compute; reflexivity|]).
  - apply po_value; [fine|reflexivity|]. right. left. eexists. split; [vm_compute; reflexivity|exact I].
  - apply po_value; [fine|reflexivity|]. right. left. eexists. split; [vm_compute; reflexivity|exact I].
  - apply po_value; [fine|reflexivity|]. left. vm_compute. intros [X|[]]. discriminate.
  - apply po_del; [vm_compute; left; reflexivity|discriminate].
  - apply po_value; [fine|reflexivity|]. left. vm_compute. intros [X|[X|[X|[]]]]; discriminate.
Qed.

(** A second case: a dict and a list of dicts become tables, a value is replaced by a table, elements
    come and go, a table is replaced, an array of tables is replaced by a value. *)
Definition C43_tables : list (list pstep * eop) :=
  [([], ESet (L "d") (PDict [(L "x", PInt 1); (L "y", PDict [(L "z", PInt 2)])])); ([], ESet (L "q") (PList [PDict [(L "a", PInt 1)]; PDict [(L "a", PInt 2)]]));
   ([], ESet (L "t") (PDict [(L "b", PBool true)])); ([], EInsert (L "p") 1 (PDict [(L "n", PInt 3)])); ([], EDrop (L "q") (-2)); ([], ESet (L "s") (PDict []));
   ([], ESet (L "q") (PInt 7)); ([Edit.Key (L "d")], ESet (L "y") (PList [PDict []]))].
Local Ltac newn := intros a Ha; cbn in Ha; repeat destruct Ha as [Ha|Ha]; try contradiction; subst; (split; [discriminate|]); vm_compute; intros X; repeat destruct X as [X|X]; discriminate || contradiction.
Local Ltac fine2 := repeat first [apply pf_dict; cbn [map fst snd] | apply pf_list | apply pf_scalar; exact I | apply Forall_nil | apply Forall_cons; cbn [snd]
  | apply NoDup_nil | apply NoDup_cons; [cbn [In]; intros X; repeat destruct X as [X|X]; discriminate || contradiction|]].
Local Ltac no_key := vm_compute; intros X; repeat destruct X as [X|X]; discriminate || contradiction.
Example C43_example_tables : possible C43_read C43_tables /\
  exists c', edit_all C43_read C43_tables = Ok c' /\ cont_string c' =
    L "q = 7" ++ nl ++ L "[t]" ++ nl ++ L "b = true" ++ nl ++ nl ++ L "  [s]" ++ nl ++ nl ++ L "[[p]]" ++ nl ++ L "n = 2" ++ nl ++ L "[[p]]" ++ nl ++ L "n = 3" ++ nl ++ nl ++ L "[d]" ++ nl ++ L "x = 1" ++ nl ++ L "[[d.y]]" ++ nl.
Proof.
  split; [|eexists; split; [vm_compute; reflexivity|vm_compute; reflexivity]].
  repeat (split; [|intros c' E; vm_compute in E; injection E as <-]); try exact I; eexists _, _; (split; [vm_compute; reflexivity|]).
  - apply po_table; [fine2|reflexivity|newn|]. left. no_key.
  - apply po_table; [fine2|reflexivity|newn|]. left. no_key.
  - apply po_table; [fine2|reflexivity|newn|]. right. right. right. split; [eexists; split; [vm_compute; reflexivity|exact I]|].
    intros (a & sk & it & b & sk' & it' & B & _ & In' & Kd). assert (I2 : In (Some sk', it') (a ++ (Some sk, it) :: b)) by (apply in_or_app; right; right; exact In'). rewrite <- B in I2. clear B. cbn [c_body In] in I2. repeat destruct I2 as [I2|I2]; try contradiction; inversion I2; subst; discriminate Kd.
  - apply po_insert with 1; [fine2|reflexivity|newn|]. eexists _, _, _, _. split; vm_compute; reflexivity.
  - apply po_drop with 2; [eexists _, _, _, _; split; vm_compute; reflexivity|vm_compute; discriminate|discriminate].
  - apply po_table; [fine2|reflexivity|newn|]. right. left. eexists _, _. vm_compute. reflexivity.
  - apply po_value; [fine2|reflexivity|]. right. right. split; [right; eexists _, _, _, _, _; split; vm_compute; reflexivity|]. right. eexists (_ :: _ :: _ :: _ :: _ :: []), _, _, _. split; [reflexivity|]. split; [reflexivity|intros e []].
  - apply po_table; [fine2|reflexivity|newn|]. right. left. eexists _, _. vm_compute. reflexivity.
Qed.

(** Above a dotted key a dict in the place of a value swallows it: "x = 1 / a.b = 2" after
    [doc["x"] = {"y": 1}] is "[x] / y = 1 / a.b = 2", in which [a] belongs to [x]. *)
Definition C43_dotted : str := L "x = 1" ++ nl ++ L "a.b = 2" ++ nl.
Theorem C43_above_dotted_refuted : document_means C43_dotted [(L "x", PInt 1); (L "a", PDict [(L "b", PInt 2)])] /\ whole_lines C43_dotted /\
  exists c c' c2 d', parse C43_dotted = Ok c /\ edit_all c [([], ESet (L "x") (PDict [(L "y", PInt 1)]))] = Ok c' /\ cont_string c' = L "[x]" ++ nl ++ L "y = 1" ++ nl ++ nl ++ L "a.b = 2" ++ nl /\
    parse (cont_string c') = Ok c2 /\ unwrap_cont c2 = Some d' /\ ~ history [([], ESet (L "x") (PDict [(L "y", PInt 1)]))] [(L "x", PInt 1); (L "a", PDict [(L "b", PInt 2)])] d'.
Proof.
  split; [|split; [right; exists (removelast C43_dotted); vm_compute; reflexivity|]].
  - refine (bd [] [] [] C43_dotted [(L "x", Value (PInt 1)); (L "a", Names [(L "b", Value (PInt 2))])] [] [] _ _ _); [|constructor|nodup].
    refine (pl_pair _ [] (L "x") [L "x"] (L " = ") (L "1") (PInt 1) nl _ _ _ _ _ _ _ _ (put_value (L "x") _ [] _) _ _); [bl|apply km_one; name (@nil char) (L "x") (@nil char)|eq_|int1|intros []|eol|].
    refine (pl_pair _ [] (L "a.b") [L "a"; L "b"] (L " = ") (L "2") (PInt 2) nl [] _ _ _ _ _ _ _ _ _ _); [bl| |eq_|int1| |eol|constructor].
    + refine (km_dot (L "a") (L "a") (L "b") _ _ _); [|apply km_one]; [name (@nil char) (L "a") (@nil char)|name (@nil char) (L "b") (@nil char)].
    + apply (put_table (L "a") [L "b"] _ [(L "x", Value (PInt 1))]); [cbn; intros [X|[]]; discriminate|]. apply (put_value (L "b") _ []). intros [].
  - eexists _, _, _, _. split; [vm_compute; reflexivity|]. split; [vm_compute; reflexivity|]. split; [vm_compute; reflexivity|]. split; [vm_compute; reflexivity|]. split; [vm_compute; reflexivity|].
    intros H. inversion H as [|? ? ? ? d1 ? He Hi]; subst. inversion Hi; subst. inversion He as [? ? ? Hc| |]; subst.
    inversion Hc as [? ? ? a b Nk Q E1 E2 E3|? ? ? ? a b a' b' Nk Q Eab E1 E2 E3| | | | | | | | |]; subst.
    + apply Nk. rewrite E2. left. reflexivity.
    + assert (Ln : List.length (a ++ (L "x", x) :: b) = 2%nat) by (rewrite E2; reflexivity). apply (f_equal (@List.length _)) in E3, Eab. rewrite !app_length in *. cbn in *. rewrite !Nat.add_succ_r in *. injection Ln as Ln. rewrite Eab, Ln in E3. discriminate.
Qed.
Print Assumptions C43_above_dotted_refuted.

(** A third case: a new document built by the API: a comment, an empty line, a key with a comment, a
    table with a key; then the table is indented and gets a comment and another key. *)
Definition C43_build : list (list pstep * eop) :=
  [([], ERemark (L "title")); ([], ENewline); ([], EAdd (L "a") (PInt 1)); ([], ENote (L "a") (L "first")); ([], EAdd (L "t") (PDict [(L "x", PStr (L "y"))]));
   ([], EIndent (L "t") 2); ([], ENote (L "t") (L "# second")); ([Edit.Key (L "t")], EAdd (L "z") (PInt 2)); ([Edit.Key (L "t")], ERemark (L "end"))].
Local Ltac line_ := repeat (apply Forall_cons; [intros X; vm_compute in X; intuition discriminate|]); apply Forall_nil.
Local Ltac start_ := intros a r X Fa; repeat (destruct a as [|? a]; [try discriminate X; try apply Forall_nil|injection X as X2 X; subst; try (inversion Fa as [|? ? Y]; vm_compute in Y; discriminate Y)]).
Example C43_example_build : possible (empty_cont false) C43_build /\
  exists c', edit_all (empty_cont false) C43_build = Ok c' /\ cont_string c' =
    L "# title" ++ nl ++ nl ++ L "a = 1 # first" ++ nl ++ nl ++ L "  [t] # second" ++ nl ++ L "  x = ""y""" ++ nl ++ L "  z = 2" ++ nl ++ L "  # end" ++ nl.
Proof.
  split; [|eexists; split; [vm_compute; reflexivity|vm_compute; reflexivity]].
  repeat (split; [|intros c' E; vm_compute in E; injection E as <-]); try exact I; eexists _, _; (split; [vm_compute; reflexivity|]).
  - apply po_remark. line_.
  - apply po_newline.
  - apply po_add; [fine2|no_key|discriminate].
  - apply po_note; [left; split; [eexists; split; [vm_compute; reflexivity|exact I]|intros b tr X; vm_compute in X; discriminate]|line_|start_].
  - apply po_add; [fine2|no_key|intros _; newn].
  - apply po_indent. right. left. eexists _, _. vm_compute. reflexivity.
  - apply po_note; [right; left; eexists _, _; vm_compute; reflexivity|line_|start_].
  - apply po_add; [fine2|no_key|discriminate].
  - apply po_remark. line_.
Qed.

(** Outside the edits of C43: a comment with a line break, or with a no-break space before
    "#", spoils "x = 1"; booleans have no [comment] that works. *)
Theorem C43_comment_refuted :
  (exists c c' c2, parse (L "x = 1" ++ nl) = Ok c /\ edit_all c [([], ENote (L "x") (L "n" ++ nl ++ L "y = 2"))] = Ok c' /\ parse (cont_string c') = Ok c2 /\ unwrap_cont c2 = Some [(L "x", PInt 1); (L "y", PInt 2)]) /\
  (exists c c', parse (L "x = 1" ++ nl) = Ok c /\ edit_all c [([], ENote (L "x") ([160]%N ++ L "# n"))] = Ok c' /\ forall c2, parse (cont_string c') <> Ok c2) /\
  (exists c, parse (L "x = true" ++ nl) = Ok c /\ edit_all c [([], ENote (L "x") (L "n"))] = Err AttributeErrorE).
Proof.
  split; [|split].
  - eexists _, _, _. split; [vm_compute; reflexivity|]. split; [vm_compute; reflexivity|]. split; [vm_compute; reflexivity|vm_compute; reflexivity].
  - eexists _, _. split; [vm_compute; reflexivity|]. split; [vm_compute; reflexivity|]. intros c2. vm_compute. discriminate.
  - eexists. split; [vm_compute; reflexivity|vm_compute; reflexivity].
Qed.
Print Assumptions C43_comment_refuted.
