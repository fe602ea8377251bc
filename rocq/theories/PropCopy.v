(** Property C45: copies of documents. *)
From Verif Require Import Base Utils Items Container Parser Api PyVal PyItem Edit Copy Wf Errors Ordinary Render CopyFacts.

(** C45, text: for every text [s] that [parse] accepts, a deep copy ([copy.deepcopy(doc)],
    or [pickle.loads(pickle.dumps(doc))]) of the document is written as the same text as the document and
    iterates over the same keys in the same order. *)
Theorem C45_deep_text : forall s doc, parse s = Ok doc ->
  cont_string (copy_cont doc) = cont_string doc /\ c_dict (copy_cont doc) = c_dict doc.
Proof.
  intros s doc H. rewrite (parsed_copy_strip s doc H). rewrite !cont_string_eq. destruct (proj2 strip_text doc) as (D & _ & T). split; [apply T|exact D].
Qed.
Print Assumptions C45_deep_text.

(** C45, everything: if no line of the text begins with spaces and a bracket, or no line begins with two brackets, the deep copy is equal to the document
    in every respect that the model knows: text, keys, values, comments, the result of any later operation.
    Missing: documents with arrays of tables and indented headers; that the copy
    shares no object with the original is not expressed in this model. *)
Theorem C45_deep_equal_partial : forall s doc, no_indented_bracket s \/ no_double_bracket s -> parse s = Ok doc -> copy_cont doc = doc.
Proof. intros s doc [H|H]; [apply parsed_copy, H|apply parsed_copy_noaot, H]. Qed.
Print Assumptions C45_deep_equal_partial.
(** In particular: the same value, and the same results of any edits. *)
Theorem C45_deep_edits_partial : forall s doc es, no_indented_bracket s \/ no_double_bracket s -> parse s = Ok doc ->
  unwrap_cont (copy_cont doc) = unwrap_cont doc /\ edit_all (copy_cont doc) es = edit_all doc es.
Proof. intros s doc es Hs H. rewrite (C45_deep_equal_partial s doc Hs H). split; reflexivity. Qed.
Print Assumptions C45_deep_edits_partial.

(** C45, [copy.copy(doc)] / [doc.copy()]: same text, same keys, for every document. *)
Theorem C45_shallow_text : forall doc, cont_string (shallow_copy doc) = cont_string doc /\ c_dict (shallow_copy doc) = c_dict doc /\ forall k, get_item (shallow_copy doc) k = get_item doc k.
Proof. intros [body m p tks d]. repeat split. Qed.
Print Assumptions C45_shallow_text.

Open Scope string_scope.
Definition ok (r : res container) : container := match r with Ok c => c | Err _ => empty_cont false end.
Definition sample : str := L "x = [ 1, # one
  [2,3] , { a.b = 1, c = 'x' } ]
d.e = 1
[t] # c
 y = 1979-05-27
[[p.q]]
[p.q.r]
[[p.q]]
z = """"
[u]
[t.v]
".
Example C45_sample : exists doc, parse sample = Ok doc /\ c_dict doc = [L "x"; L "d"; L "t"; L "p"; L "u"] /\ cont_string (copy_cont doc) = sample.
Proof. exists (ok (parse sample)). vm_compute. repeat split. Qed.

Definition sample2 : str := L "x = [ 1, # one
  2 ]
d = { a.b = 1, c = 'x' }
[t] # c
 y = 1979-05-27
[u]
[t.v]
".
Example C45_sample2 : no_indented_bracket sample2 /\ exists doc, parse sample2 = Ok doc /\ c_dict doc = [L "x"; L "d"; L "t"; L "u"].
Proof. split; [apply or_indent, ordinaryb_ok; vm_compute; reflexivity|exists (ok (parse sample2)); vm_compute; split; reflexivity]. Qed.

(** Documents that are not just parsed: an inline table made from a dict loses the blank after its commas ([_new] is not copied). *)
Theorem C45_inline_refuted : exists es, let doc := ok (edit_all (empty_cont false) es) in
  cont_string doc = L "x = [{a = 1, b = 2}, 3]
" /\ cont_string (copy_cont doc) = L "x = [{a = 1,b = 2}, 3]
".
Proof. exists [([], ESet (L "x") (PList [PDict [(L "a", PInt 1); (L "b", PInt 2)]; PInt 3]))]. vm_compute. split; reflexivity. Qed.
Print Assumptions C45_inline_refuted.
(** An array of tables made from a list gets blank lines that were not there. *)
Theorem C45_aot_refuted : exists es, let doc := ok (edit_all (empty_cont false) es) in
  cont_string doc = L "[[a]]
c = 1
[[a]]
b = 1
" /\ cont_string (copy_cont doc) = L "[[a]]
c = 1

[[a]]
b = 1
".
Proof.
  exists [([], ESet (L "a") (PList [PDict []; PDict [(L "b", PInt 1)]])); ([Key (L "a"); Index 0], ESet (L "c") (PInt 1))]. vm_compute. split; reflexivity.
Qed.
Print Assumptions C45_aot_refuted.
(** After [doc = parse("[t]\n"); doc["x"] = 1], iterating over the copy gives the keys in another order. *)
Theorem C45_order_refuted : exists s es, let doc := ok (edit_all (ok (parse s)) es) in
  c_dict doc = [L "t"; L "x"] /\ c_dict (copy_cont doc) = [L "x"; L "t"] /\ cont_string (copy_cont doc) = cont_string doc.
Proof.
  exists (L "[t]
"), [([], ESet (L "x") (PInt 1))]. vm_compute. repeat split.
Qed.
Print Assumptions C45_order_refuted.
(** A shallow copy can raise IndexError where the document does not: adding [[a.c]] to a copy of a
    document with the table [[a.b]] ([_table_keys] is not copied). *)
Theorem C45_shallow_append_refuted : exists s it, let doc := ok (parse s) in
  (exists d', cappend false doc (Some (api_key (L "a"))) it = Ok d' /\ cont_string d' = L "[a.b]

[a.c]
") /\ cappend false (shallow_copy doc) (Some (api_key (L "a"))) it = Err IndexErrorE.
Proof.
  exists (L "[a.b]
"), (ITable (singleton (skey_of_str (L "c")) (ITable (empty_cont false) (mkTM default_trivia false (Some false) None None))) (super_meta None)).
  cbv zeta. split; [eexists|]; vm_compute; [split|]; reflexivity.
Qed.
Print Assumptions C45_shallow_append_refuted.
