(** Property C50: what is in memory is what is written. *)
From Verif Require Import Base Utils Items Container Parser Api PyVal PyItem Wf ContOps ContText Grammar Denote Document Snug CompValue Edit Changes Possible MadeNeat MadeSnug Neat EditAll DocRun DocNeat Memory PropEdit PropInside.

(** C50: read a TOML document made of whole lines, standing for [d]; then perform any sequence of the edits of C43.
    At that point the document in memory ([doc.unwrap()]) is a dict [d1]; the text it would write is a TOML document standing
    for a dict [d2]; the two are equal as Python dicts (PyVal.v: the order of the keys does not count), [d2] is what
    the same edits make of [d], and reading the text gives [d2].  The edits are any sequence, so this holds between any two of them.
    Missing: the edits and the documents that C43 leaves out. *)
Theorem C50_document_partial : forall w d es c, document_means w d -> whole_lines w -> parse w = Ok c -> possible c es ->
  exists c' d1 d2, edit_all c es = Ok c' /\ unwrap_cont c' = Some d1 /\ document_means (cont_string c') d2 /\ pyeq (PDict d1) (PDict d2) /\ history es d d2 /\
    exists c2, parse (cont_string c') = Ok c2 /\ unwrap_cont c2 = Some d2.
Proof.
  intros w d es c H Hw E P. destruct (document_neat w d H (or_intror Hw)) as (c0 & E0 & _ & N). rewrite E in E0. injection E0 as <-.
  destruct (edits_neat es c d (parsed_ok w c E) N (possible_legal es c d (parsed_ok w c E) N P)) as (c' & d2 & Ed & Ok' & N' & Hi). destruct (neat_unwrap c' d2 Ok' N') as (d1 & U & Q). pose proof (neat_text c' d2 N') as T.
  exists c', d1, d2. split; [exact Ed|]. split; [exact U|]. split; [exact T|]. split; [exact Q|]. split; [exact Hi|]. apply document_parsed, T.
Qed.
Print Assumptions C50_document_partial.

(** The same for a new document ([tomlkit.document()]). *)
Theorem C50_new_partial : forall es, possible (empty_cont false) es ->
  exists c' d1 d2, edit_all (empty_cont false) es = Ok c' /\ unwrap_cont c' = Some d1 /\ document_means (cont_string c') d2 /\ pyeq (PDict d1) (PDict d2) /\ history es [] d2 /\
    exists c2, parse (cont_string c') = Ok c2 /\ unwrap_cont c2 = Some d2.
Proof.
  intros es P. apply (C50_document_partial [] []); [|left; reflexivity|reflexivity|exact P]. apply (bd [] [] [] [] [] [] []); constructor.
Qed.
Print Assumptions C50_new_partial.

(** The same for a value: [it = tomlkit.value(w)], then any sequence of the edits of C49 inside its inline tables and arrays. *)
Theorem C50_value_partial : forall w v it es, denotes w v -> value_of w = Ok it -> possible_insides it es ->
  exists it' v1 v2, inside_all it es = Ok it' /\ unwrap it' = Some v1 /\ denotes (item_string it') v2 /\ pyeq v1 v2 /\ inside_history es v v2 /\
    exists it2, value_of (item_string it') = Ok it2 /\ unwrap it2 = Some v2.
Proof.
  intros w v it es H E Po. destruct (PropInside.insides es it v (denotes_snug w v it H E) Po) as (it' & v2 & E' & Hi & Sn). destruct (snug_unwrap it' v2 Sn) as (v1 & U & Q). pose proof (snug_text it' v2 Sn) as D.
  exists it', v1, v2. split; [exact E'|]. split; [exact U|]. split; [exact D|]. split; [exact Q|]. split; [exact Hi|]. apply denotes_value, D.
Qed.
Print Assumptions C50_value_partial.

(** Cases: the documents of C43 and the values of C49 (their hypotheses are shown there), with what is in memory after the edits. *)
Example C50_example : document_means C43_text C43_value /\ whole_lines C43_text /\ parse C43_text = Ok C43_read /\ possible C43_read C43_tables /\
  exists c', edit_all C43_read C43_tables = Ok c' /\ unwrap_cont c' = Some
    [(L "s", PDict []); (L "p", PList [PDict [(L "n", PInt 2)]; PDict [(L "n", PInt 3)]]); (L "d", PDict [(L "x", PInt 1); (L "y", PList [PDict []])]); (L "t", PDict [(L "b", PBool true)]); (L "q", PInt 7)].
Proof.
  destruct C43_example_document as [A B]. split; [exact A|]. split; [exact B|]. split; [vm_compute; reflexivity|]. split; [apply C43_example_tables|]. eexists. split; [vm_compute; reflexivity|vm_compute; reflexivity].
Qed.
Example C50_value_example : denotes C49_array (PList [PDict [(L "a", PInt 1)]; PList [PInt 2; PInt 3]]) /\ value_of C49_array = Ok C49_array_read /\ possible_insides C49_array_read C49_array_list /\
  exists it', inside_all C49_array_read C49_array_list = Ok it' /\ unwrap it' = Some (PList [PDict [(L "c", PInt 1); (L "d", PList [PInt 6; PDict [(L "x", PInt 7); (L "y", PInt 8)]])]; PList [PBool true; PInt 3; PInt 4]]).
Proof.
  destruct C49_array_text as [A B]. split; [exact A|]. split; [exact B|]. split; [apply C49_array_example|]. eexists. split; [vm_compute; reflexivity|vm_compute; reflexivity].
Qed.

(** Where C43 does not apply, memory and text part: a dict assigned to a key above a dotted key; a key assigned below a last line
    without a line break (the text is not TOML); a comment with a line break in it. *)
Theorem C50_refuted :
  (exists c c' d1 c2 d2, parse C43_dotted = Ok c /\ edit_all c [([], ESet (L "x") (PDict [(L "y", PInt 1)]))] = Ok c' /\ unwrap_cont c' = Some d1 /\ parse (cont_string c') = Ok c2 /\ unwrap_cont c2 = Some d2 /\
     ~ pyeq (PDict d1) (PDict d2)) /\
  (exists c c' d1, parse (L "a.b = 1") = Ok c /\ edit_all c [([], ESet (L "c") (PInt 1))] = Ok c' /\ unwrap_cont c' = Some d1 /\ forall c2, parse (cont_string c') <> Ok c2) /\
  (exists c c' d1 c2 d2, parse (L "x = 1" ++ nl) = Ok c /\ edit_all c [([], ENote (L "x") (L "n" ++ nl ++ L "y = 2"))] = Ok c' /\ unwrap_cont c' = Some d1 /\ parse (cont_string c') = Ok c2 /\ unwrap_cont c2 = Some d2 /\
     ~ pyeq (PDict d1) (PDict d2)).
Proof.
  assert (Ln : forall a b, pyeq (PDict a) (PDict b) -> List.length a = List.length b).
  { intros a b H. inversion H as [| | |? l1 ? P F]; subst; [reflexivity|]. rewrite (Permutation.Permutation_length P). clear -F. induction F; cbn; congruence. }
  split; [|split].
  - eexists _, _, _, _, _. split; [vm_compute; reflexivity|]. split; [vm_compute; reflexivity|]. split; [vm_compute; reflexivity|]. split; [vm_compute; reflexivity|]. split; [vm_compute; reflexivity|]. intros H. apply Ln in H. discriminate.
  - eexists _, _, _. split; [vm_compute; reflexivity|]. split; [vm_compute; reflexivity|]. split; [vm_compute; reflexivity|]. intros c2. vm_compute. discriminate.
  - eexists _, _, _, _, _. split; [vm_compute; reflexivity|]. split; [vm_compute; reflexivity|]. split; [vm_compute; reflexivity|]. split; [vm_compute; reflexivity|]. split; [vm_compute; reflexivity|]. intros H. apply Ln in H. discriminate.
Qed.
Print Assumptions C50_refuted.
