(** Property C46: an edit changes its own stretch of the text and nothing else. *)
From Verif Require Import Base Utils Items Container Parser Api PyVal PyItem Wf ContOps ContText Numbers Dates DumpValue Grammar Denote Document Ordinary Spelling Edit Changes Possible Surgery Neat Ends EditAll DocRun DocNeat SurgeryFacts SpellingTest PropDocLossless PropEdit.

(** C46: read a TOML document made of whole lines; perform any sequence of assignments of values (not
    tables), deletions of values, additions of values, comments and empty lines, and calls of [comment] and
    [indent] on values, at any depth.  Then the new text comes from the old one by one stroke per edit (Surgery.v):
    each rewrites the value on one line, adds one line, removes one line or rewrites the blanks
    or the comment of one line; every other character stays.  And the new text stands for what
    the edits make of the dict, so that the lines touched are those of the keys named.
    Missing: edits that make or remove tables and elements of arrays of tables; additions to and
    deletions from tables without a header of their own; [comment] and [indent] of tables. *)
Theorem C46_strokes_partial : forall w d es c, document_means w d -> whole_lines w -> parse w = Ok c -> surgical c es ->
  exists c' d', edit_all c es = Ok c' /\ strokes es (cont_string c) (cont_string c') /\ history es d d' /\ document_means (cont_string c') d'.
Proof.
  intros w d es c H Hw E P. destruct (document_neat w d H (or_intror Hw)) as (c0 & E0 & _ & N). rewrite E in E0. injection E0 as <-.
  destruct (many_strokes es c d (parsed_ok w c E) N P) as (c' & d' & Ed & N' & Hi & St). exists c', d'. split; [exact Ed|]. split; [exact St|]. split; [exact Hi|apply neat_text, N'].
Qed.
Print Assumptions C46_strokes_partial.

(** The same from the text that was read, where C01 gives it back: nothing but the strokes separates
    the text written from the text read. *)
Theorem C46_text_partial : forall w d sp es c, document_means w d -> whole_lines w -> even_headers sp w -> no_date_space w -> no_blank_comma w -> parse w = Ok c -> surgical c es ->
  exists c' d', edit_all c es = Ok c' /\ strokes es w (cont_string c') /\ history es d d' /\ document_means (cont_string c') d'.
Proof.
  intros w d sp es c H Hw He Hd Hc E P. destruct (C01_document_partial w d sp H He Hd Hc) as (c0 & E0 & S0 & _). rewrite E in E0. injection E0 as <-.
  destruct (C46_strokes_partial w d es c H Hw E P) as (c' & d' & Ed & St & Hi & Me). rewrite S0 in St. eauto 6.
Qed.
Print Assumptions C46_text_partial.

(** A case, with the document of C43: a value and a value in an indented table are replaced, a key is added
    to that table, its value gets a comment, a key of an element of an array of tables is indented and deleted, and a comment and an
    empty line are added there. *)
Definition C46_edits : list (list pstep * eop) :=
  [([], ESet (L "t") (PInt 5)); ([Edit.Key (L "s")], ESet (L "k") (PStr (L "x"))); ([Edit.Key (L "s")], EAdd (L "new") (PInt 1));
   ([Edit.Key (L "s")], ENote (L "new") (L "why")); ([Edit.Key (L "p"); Index 0], EIndent (L "n") 4); ([Edit.Key (L "p"); Index 0], EDel (L "n"));
   ([Edit.Key (L "p"); Index 0], ERemark (L "none")); ([Edit.Key (L "p"); Index 0], ENewline); ([], ENote (L "t") (L "d"))].
Local Ltac fine := repeat first [apply pf_list; repeat constructor | apply pf_scalar; exact I].
Local Ltac no_key := vm_compute; intros X; repeat destruct X as [X|X]; discriminate || contradiction.
Local Ltac line_ := repeat (apply Forall_cons; [intros X; vm_compute in X; intuition discriminate|]); apply Forall_nil.
Local Ltac start_ := intros a r X Fa; repeat (destruct a as [|? a]; [try discriminate X; try apply Forall_nil|injection X as X2 X; subst; try (inversion Fa as [|? ? Y]; vm_compute in Y; discriminate Y)]).
Local Ltac has := eexists; split; [vm_compute; reflexivity|exact I].
Local Ltac not_bool := let X := fresh in intros ? ? X; vm_compute in X; discriminate X.
Example C46_example : parse C43_text = Ok C43_read /\ surgical C43_read C46_edits /\
  even_headers (fun n => n) C43_text /\ no_date_space C43_text /\ no_blank_comma C43_text /\
  exists c', edit_all C43_read C46_edits = Ok c' /\ cont_string c' =
    L "t = 5 # d" ++ nl ++ L "  [s]" ++ nl ++ L "  k = ""x""" ++ nl ++ L "  new = 1 # why" ++ nl ++ L "[[p]]" ++ nl ++ L "# none" ++ nl ++ nl.
Proof.
  split; [vm_compute; reflexivity|]. split; [|split; [apply evenb_ok; vm_compute; reflexivity|]].
  2:{ assert (H : no_date_space C43_text /\ no_blank_comma C43_text) by (apply calmb_ok; vm_compute; reflexivity). destruct H as [H1 H2]. split; [exact H1|]. split; [exact H2|]. eexists. split; [vm_compute; reflexivity|vm_compute; reflexivity]. }
  repeat (split; [|intros c' E; vm_compute in E; injection E as <-]); try exact I; eexists _, _; (split; [vm_compute; reflexivity|]); (split; [|cbn [small own_header tm_aot tm_super]]).
  - apply po_value; [fine|reflexivity|]. right. left. has.
  - split; [reflexivity|]. left. has.
  - apply po_value; [fine|reflexivity|]. right. left. has.
  - split; [reflexivity|]. left. has.
  - apply po_add; [fine|no_key|discriminate].
  - split; [reflexivity|]. right. reflexivity.
  - apply po_note; [left; split; [has|not_bool]|line_|start_].
  - has.
  - apply po_indent. left. split; [has|not_bool].
  - has.
  - apply po_del; [vm_compute; left; reflexivity|discriminate].
  - split; [has|left; reflexivity].
  - apply po_remark. line_.
  - left; reflexivity.
  - apply po_newline.
  - left; reflexivity.
  - apply po_note; [left; split; [has|not_bool]|line_|start_].
  - has.
Qed.
