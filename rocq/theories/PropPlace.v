(** Property C20 for documents of the TOML grammar: no hypothesis on the entries. *)
From Verif Require Import Base Utils Items Container Parser Api PyVal PyItem Lemmas Consist Wf OMap ContOps ContText Numbers Dates DumpValue Render Grammar Denote Document Edit Changes Possible MadeNeat Neat Ends EditNeat EditOps EditAll DocRun DocNeat Regular PropEdit.
Open Scope nat_scope.

(** C20: read a TOML document made of whole lines, edit it in any of the ways of C43, and take any table [t] in it, or the document itself.  Adding a new key with
    a plain value succeeds; its line, and nothing else, is put between two parts of what the table was written as: behind the entries that stand above
    the first header in the table, before the rest, which is blank or begins (after blank lines) with a header.
    What the text then stands for, and that it is read back so, is C43; that the text around the table stays is C46. *)
Theorem C20_document_partial : forall w d es c c1 p m t k v, document_means w d -> whole_lines w -> parse w = Ok c -> possible c es -> edit_all c es = Ok c1 ->
  table_at None c1 p = Some (m, t) -> ContOps.plain v -> ~ In k (c_dict t) ->
  exists t' b1 b2, cstep t (CAdd k v) = Ok t' /\ c_body t = b1 ++ b2 /\ Forall above b1 /\ tables_part b2 /\ cont_string t = btext None false b1 ++ btext None false b2 /\
    cont_string t' = btext None false b1 ++ ContText.line (k_orig (skey_of_str k)) (skey_of_str k) v ++ btext None false b2.
Proof.
  intros w d es c c1 p m t k v H Hw E P Ed Ta Pv Nk. destruct (document_neat w d H (or_intror Hw)) as (c0 & E0 & _ & N). rewrite E in E0. injection E0 as <-.
  destruct (edits_neat es c d (parsed_ok w c E) N (possible_legal es c d (parsed_ok w c E) N P)) as (c' & d' & Ed' & O' & N' & _). rewrite Ed in Ed'. injection Ed' as <-.
  apply (added_line c1 d' p m t k v O' N' Ta Pv). destruct (map_get k (c_map t)) eqn:M; [|reflexivity]. exfalso. apply Nk. apply (consistent_dict t k); [|congruence].
  apply ok_parts. eapply table_at_ok; eauto.
Qed.
Print Assumptions C20_document_partial.
Example C20_document_example : document_means C43_text C43_value /\ whole_lines C43_text /\ parse C43_text = Ok C43_read /\ possible C43_read C43_tables /\
  exists c1 m t t', edit_all C43_read C43_tables = Ok c1 /\ table_at None c1 [Edit.Key (L "d")] = Some (m, t) /\ ~ In (L "new") (c_dict t) /\ cstep t (CAdd (L "new") (api_int 5)) = Ok t' /\
    cont_string t = L "x = 1" ++ nl ++ L "[[y]]" ++ nl /\ cont_string t' = L "x = 1" ++ nl ++ L "new = 5" ++ nl ++ L "[[y]]" ++ nl.
Proof.
  destruct C43_example_document as [A B]. split; [exact A|]. split; [exact B|]. split; [vm_compute; reflexivity|]. split; [apply C43_example_tables|]. eexists _, _, _, _. split; [vm_compute; reflexivity|]. split; [vm_compute; reflexivity|].
  split; [vm_compute; intros [X|[X|[]]]; discriminate|]. split; [vm_compute; reflexivity|]. split; [vm_compute; reflexivity|vm_compute; reflexivity].
Qed.
