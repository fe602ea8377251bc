(** C37: what the parser accepts is laid out like TOML.  The specification is
    Grammar.v (layout of documents, values, strings, keys; it mentions no parser)
    and, for the witnesses, [even_brackets] and [unquoted] of GramBal.v. *)
From Verif Require Import Base Source Utils Items Container Arrays Parser Api Reader Grammar GramSound GramBal.

(** Whatever the text: if it is accepted, it is a sequence of lines - blank lines,
    comments, "key = value" lines, table headers - whose keys, values, strings,
    arrays and inline tables have the layout TOML prescribes, except for the two
    lax places named in Grammar.v. *)
Theorem C37_documents_partial : forall s d, parse s = Ok d -> document true s.
Proof. exact (parse_document false). Qed.
Print Assumptions C37_documents_partial.
(** The same for [tomlkit.value]. *)
Theorem C37_values_partial : forall s v, value_of s = Ok v -> value_text true s.
Proof. exact value_of_text. Qed.
Print Assumptions C37_values_partial.
(** The lax places need an opening brace, or two opening brackets side by side. *)
Theorem C37_strict : forall s d, parse s = Ok d -> ~ In 123%N s -> (forall x y, s <> x ++ [91; 91]%N ++ y) -> document false s.
Proof. intros s d H. apply document_strict. exact (parse_document false s d H). Qed.
Print Assumptions C37_strict.
(** Pieces of documents: strings, keys, values anywhere in any text. *)
Theorem C37_strings : forall n d st r st', st_multiline d = false -> parse_string n d st = (Ok r, st') ->
  exists ml w, moved w st st' /\ string_text (st_basic d) ml w.
Proof. intros n d st r st' Hd H. destruct (string_gram n d st r st' Hd H) as (ml & w & M & T & _). exists ml, w. split; assumption. Qed.
Print Assumptions C37_strings.
Theorem C37_keys : forall n st k st', parse_key n st = (Ok k, st') -> exists w, moved w st st' /\ key_text w.
Proof. exact key_gram. Qed.
Print Assumptions C37_keys.

(** The grammar is a real restriction: a document without quotes and comments has
    as many opening as closing brackets and braces. *)
Theorem C37_even_brackets : forall s, document false s -> unquoted s -> even_brackets 91 93 s /\ even_brackets 123 125 s.
Proof. intros s H U. split; apply document_even; try assumption; [right|left]; split; reflexivity. Qed.
Print Assumptions C37_even_brackets.
(** Not TOML, but accepted: an unfinished inline table in an array, *)
Theorem C37_dropped_refuted : let s := L "x = [{a]" in (exists d, parse s = Ok d) /\ ~ document false s.
Proof.
  split; [eexists; vm_compute; reflexivity|]. intros H. apply C37_even_brackets in H as [_ H]; [discriminate H|].
  repeat split; intros K; vm_compute in K; repeat (destruct K as [K|K]; [discriminate K|]); exact K.
Qed.
Print Assumptions C37_dropped_refuted.
(** and an array-of-tables header with one closing bracket. *)
Theorem C37_header_refuted : let s := L "[[a]" in (exists d, parse s = Ok d) /\ ~ document false s.
Proof.
  split; [eexists; vm_compute; reflexivity|]. intros H. apply C37_even_brackets in H as [H _]; [discriminate H|].
  repeat split; intros K; vm_compute in K; repeat (destruct K as [K|K]; [discriminate K|]); exact K.
Qed.
Print Assumptions C37_header_refuted.

Example C37_example : let s := L "a.b = [1, 'x' # c
 ,2020-01-01 10:00:00 ]
[t] # y
k = """"""z""""""" in (exists d, parse s = Ok d) /\ ~ In 123%N s /\ document false s.
Proof.
  cbv zeta. set (s := L _). assert (P : exists d, parse s = Ok d) by (eexists; vm_compute; reflexivity). split; [exact P|].
  assert (B : ~ In 123%N s) by (intros K; vm_compute in K; repeat (destruct K as [K|K]; [discriminate K|]); exact K).
  split; [exact B|]. destruct P as [d P]. apply (C37_strict s d P B). intros x y E.
  assert (K : substr [91; 91]%N s = true) by (apply Lemmas.substr_spec; exists x, y; exact E). vm_compute in K. discriminate K.
Qed.
Print Assumptions C37_example.
