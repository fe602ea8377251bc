(** Property C51: the dict methods of documents and tables. *)
From Verif Require Import Base Utils Items Container Parser Api PyVal PyItem Wf ContOps ContText Unwrap DumpValue PropWritten Grammar Denote Document Lookup Edit Changes Possible MadeNeat Neat EditAll DocRun DocNeat Memory Mapping MappingSpec MappingFacts PropEdit.

(** C51: read a TOML document made of whole lines, standing for [d]; then call any sequence of [pop], [popitem], [clear],
    [update] (or [|=]) and [setdefault], on the document, its tables and the elements of its arrays of tables, mixed with the edits of C43.
    Every call succeeds; it returns a value equal to the one that the same method of a Python dict returns, and changes the dict as that
    method does (MappingSpec.v); the text written afterwards is a TOML document for the resulting dict, which is also what is in
    memory and what reading the text gives.
    Missing: what C43 leaves out, and [clear], or the removal of the last key, on a table without a header (see C51_refuted). *)
Theorem C51_methods_partial : forall w d ms c, document_means w d -> whole_lines w -> parse w = Ok c -> methods_ok c ms ->
  exists rs c' d' prs, methods c ms = Ok (rs, c') /\ methods_mean ms d prs d' /\ Forall2 returned rs prs /\ document_means (cont_string c') d' /\
    (exists d1, unwrap_cont c' = Some d1 /\ pyeq (PDict d1) (PDict d')) /\ exists c2, parse (cont_string c') = Ok c2 /\ unwrap_cont c2 = Some d'.
Proof.
  intros w d ms c H Hw E P. destruct (document_neat w d H (or_intror Hw)) as (c0 & E0 & _ & N). rewrite E in E0. injection E0 as <-.
  destruct (methods_neat ms c d (parsed_ok w c E) N P) as (rs & c' & d' & prs & Em & Ok' & N' & Mm & F). pose proof (neat_text c' d' N') as T.
  exists rs, c', d', prs. split; [exact Em|]. split; [exact Mm|]. split; [exact F|]. split; [exact T|]. split; [exact (neat_unwrap c' d' Ok' N')|apply document_parsed, T].
Qed.
Print Assumptions C51_methods_partial.

(** The same for a new document. *)
Theorem C51_new_partial : forall ms, methods_ok (empty_cont false) ms ->
  exists rs c' d' prs, methods (empty_cont false) ms = Ok (rs, c') /\ methods_mean ms [] prs d' /\ Forall2 returned rs prs /\ document_means (cont_string c') d' /\
    (exists d1, unwrap_cont c' = Some d1 /\ pyeq (PDict d1) (PDict d')) /\ exists c2, parse (cont_string c') = Ok c2 /\ unwrap_cont c2 = Some d'.
Proof.
  intros ms P. apply (C51_methods_partial [] []); [|left; reflexivity|reflexivity|exact P]. apply (bd [] [] [] [] [] [] []); constructor.
Qed.
Print Assumptions C51_new_partial.

(** Whatever text was read: where [t] is a table of the document (or the document itself) and [r] the dict in it, [pop] of a key that
    is not there raises [NonExistentKey], a KeyError, or gives the default; [popitem] of an empty table raises KeyError; [setdefault] of a key that
    is there gives its value; and nothing is changed. *)
Theorem C51_nothing_to_do : forall w c p m t r, parse w = Ok c -> table_at None c p = Some (m, t) -> unwrap_cont t = Some r ->
  (forall k, ~ In k (map fst r) -> method c p (MPop k None) = Err (NonExistentKeyE k) /\ forall v, method c p (MPop k (Some v)) = Ok (RGiven v, c)) /\
  (r = [] -> method c p MPopItem = Err KeyErrorE) /\
  (forall k v u, In (k, v) r -> exists n, method c p (MSetDefault k u) = Ok (RNode n, c) /\ node_unwrap n = Some v).
Proof.
  intros w c p m t r E T U. destruct (ok_parts t (table_at_ok p None c m t (parsed_ok w c E) T)) as (C & _). destruct (cont_pairs _ _ U) as [A B].
  unfold method, table_of. rewrite T. cbn [rbind]. split; [|split].
  - intros k N. rewrite (getitem_none t k C); [split; [reflexivity|intros v; reflexivity]|]. unfold absent. rewrite <- A. exact N.
  - intros ->. unfold popitem, table_of. rewrite T. cbn [rbind]. cbn [map] in A. rewrite <- A. reflexivity.
  - intros k v u I. destruct (getitem_uval t k v (B _ _ I)) as (n & G & Un). exists n. rewrite G. cbn [rbind]. unfold table_of. rewrite T. cbn [rbind]. rewrite G. split; [reflexivity|exact Un].
Qed.
Print Assumptions C51_nothing_to_do.

(** A case: the document of C43. *)
Definition C51_calls : list (list pstep * mop) :=
  [([], MSetDefault (L "t") (PInt 9)); ([], MSetDefault (L "u") (PList [PInt 1])); ([Edit.Key (L "s")], MPop (L "k") None); ([Edit.Key (L "s")], MPop (L "k") (Some (PInt 3)));
   ([Edit.Key (L "s")], MUpdate [(L "x", PInt 1); (L "y", PStr (L "z")); (L "x", PInt 2)]); ([Edit.Key (L "p"); Index 0], MClear); ([], MPopItem); ([], MEdit (ESet (L "w") (PBool false)))].
Local Ltac fine2 := repeat first [apply pf_dict; cbn [map fst snd] | apply pf_list | apply pf_scalar; exact I | apply Forall_nil | apply Forall_cons; cbn [snd]
  | apply NoDup_nil | apply NoDup_cons; [cbn [In]; intros X; repeat destruct X as [X|X]; discriminate || contradiction|]].
Local Ltac no_key := vm_compute; intros X; repeat destruct X as [X|X]; discriminate || contradiction.
Example C51_example : document_means C43_text C43_value /\ whole_lines C43_text /\ parse C43_text = Ok C43_read /\ methods_ok C43_read C51_calls /\
  exists rs c', methods C43_read C51_calls = Ok (rs, c') /\
    cont_string c' = L "u = [1]" ++ nl ++ L "w = false" ++ nl ++ L "  [s]" ++ nl ++ L "  x = 2" ++ nl ++ L "  y = ""z""" ++ nl ++ L "[[p]]" ++ nl.
Proof.
  destruct C43_example_document as [A B]. split; [exact A|]. split; [exact B|]. split; [vm_compute; reflexivity|]. split; [|eexists _, _; split; [vm_compute; reflexivity|vm_compute; reflexivity]].
  repeat (split; [|intros r' c' E; vm_compute in E; injection E as <- <-]); try exact I; eexists _, _; (split; [vm_compute; reflexivity|]); cbn [method_ok].
  - intros X. exfalso. apply X. vm_compute. left. reflexivity.
  - intros _. apply po_value; [fine2|reflexivity|]. left. no_key.
  - left. split; [vm_compute; left; reflexivity|discriminate].
  - right. split; [no_key|discriminate].
  - repeat (split; [|intros c' E; vm_compute in E; injection E as <-]); try exact I; eexists _, _; (split; [vm_compute; reflexivity|]); cbn [fst snd].
    + apply po_value; [fine2|reflexivity|]. left. no_key.
    + apply po_value; [fine2|reflexivity|]. left. no_key.
    + apply po_value; [fine2|reflexivity|]. right. left. eexists. split; [vm_compute; reflexivity|exact I].
  - reflexivity.
  - split; [discriminate|discriminate].
  - apply po_value; [fine2|reflexivity|]. left. no_key.
Qed.

(** Where the claim is false.  [popitem] takes the first key, where [dict.popitem] takes the last.  [clear], or [pop] of the last key, on a
    table without a header (here [a], in "[a.b]") leaves an empty table in memory that the text does not have.  *)
Definition C51_headless : str := L "[a.b]" ++ nl ++ L "x = 1" ++ nl.
Theorem C51_refuted :
  (exists c n c', parse (L "x = 1" ++ nl ++ L "y = 2" ++ nl) = Ok c /\ method c [] MPopItem = Ok (RPair (L "x") n, c') /\ cont_string c' = L "y = 2" ++ nl) /\
  (exists c r c' c2, parse C51_headless = Ok c /\ method c [Edit.Key (L "a")] MClear = Ok (r, c') /\ unwrap_cont c' = Some [(L "a", PDict [])] /\ cont_string c' = [] /\ parse (cont_string c') = Ok c2 /\ unwrap_cont c2 = Some []) /\
  (exists c r c' c2, parse C51_headless = Ok c /\ method c [Edit.Key (L "a")] (MPop (L "b") None) = Ok (r, c') /\ unwrap_cont c' = Some [(L "a", PDict [])] /\ parse (cont_string c') = Ok c2 /\ unwrap_cont c2 = Some []).
Proof.
  split; [|split].
  - eexists _, _, _. split; [vm_compute; reflexivity|]. split; [vm_compute; reflexivity|vm_compute; reflexivity].
  - eexists _, _, _, _. split; [vm_compute; reflexivity|]. split; [vm_compute; reflexivity|]. split; [vm_compute; reflexivity|]. split; [vm_compute; reflexivity|]. split; [vm_compute; reflexivity|vm_compute; reflexivity].
  - eexists _, _, _, _. split; [vm_compute; reflexivity|]. split; [vm_compute; reflexivity|]. split; [vm_compute; reflexivity|]. split; [vm_compute; reflexivity|vm_compute; reflexivity].
Qed.
Print Assumptions C51_refuted.
