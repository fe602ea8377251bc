(** Property theorems: strings (C05, C06, C07, C08).

    Vocabulary: [api_string v literal multiline] is [tomlkit.string(...)];
    [item_string it] is [it.as_string()]; [value_of t] is [tomlkit.value(t)];
    [str_value it] is the Python string an item stands for; [reads_as w it okt]
    says that the value parser, started anywhere in front of [w] followed by a
    tail satisfying [okt], returns [it] and stops exactly after [w]. *)
From Verif Require Import Base Source Utils Items Container Arrays Parser Api Lemmas Escape Strings StringRT StringApi.
From Coq Require Import Permutation.
Open Scope nat_scope.

(** C05: every string survives [tomlkit.string] and parsing, alone or followed by
    any text that does not start with a double quote. *)
Theorem C05_basic_string_roundtrip : forall v : str,
  exists it, api_string v false false = Ok it /\ str_value it = Some v
    /\ value_of (item_string it) = Ok it
    /\ reads_as (item_string it) it (no_quote chDQ).
Proof. exact api_slb. Qed.
Print Assumptions C05_basic_string_roundtrip.
Example C05_example : exists it,
  api_string [34; 92; 0; 9; 10; 127; 233; 128512; 55296]%N false false = Ok it
  /\ item_string it = L """\""\\\u0000\t\n\u007f" ++ [233; 128512; 55296; 34]%N.
Proof. eexists. split; vm_compute; reflexivity. Qed.

(** C06: the same for multi-line basic strings that do not start with a line
    break.  Missing for the full property: values starting with a line break
    (for those it is false, see below). *)
Theorem C06_multiline_roundtrip_partial : forall v : str,
  hd 0%N v <> chLF -> startswith [chCR; chLF] v = false ->
  exists it, api_string v false true = Ok it /\ str_value it = Some v
    /\ value_of (item_string it) = Ok it
    /\ reads_as (item_string it) it (no_quote chDQ).
Proof. exact (fun v H1 H2 => api_mlb v (conj H1 H2)). Qed.
Print Assumptions C06_multiline_roundtrip_partial.
Example C06_example : let v := L "a""""""""b\" ++ [10; 13; 34; 34]%N in
  hd 0%N v <> chLF /\ startswith [chCR; chLF] v = false /\
  exists it, api_string v false true = Ok it
   /\ item_string it = L """""""a""""\""""b\\" ++ [10; 13]%N ++ L """""""""""".
Proof. split; [discriminate|]. split; [reflexivity|]. eexists. split; vm_compute; reflexivity. Qed.

(** C06, refutation of the full statement: a value that starts with a newline
    loses it. *)
Theorem C06_multiline_leading_newline_refuted :
  exists v it, api_string v false true = Ok it /\ str_value it = Some v
    /\ exists it', value_of (item_string it) = Ok it' /\ str_value it' <> Some v.
Proof.
  exists [10; 97]%N. eexists. split; [vm_compute; reflexivity|]. split; [reflexivity|].
  eexists. split; [vm_compute; reflexivity|]. discriminate.
Qed.
Print Assumptions C06_multiline_leading_newline_refuted.

(** C07: literal strings are refused with InvalidStringError, or exact. *)
Theorem C07_literal_single_line : forall v : str,
  api_string v true false = Err InvalidStringE \/
  exists it, api_string v true false = Ok it /\ str_value it = Some v
    /\ item_string it = [chSQ] ++ v ++ [chSQ]
    /\ value_of (item_string it) = Ok it /\ reads_as (item_string it) it (no_quote chSQ).
Proof. exact api_sll. Qed.
Print Assumptions C07_literal_single_line.
Theorem C07_literal_multiline_partial : forall v : str,
  hd 0%N v <> chLF -> startswith [chCR; chLF] v = false ->
  api_string v true true = Err InvalidStringE \/
  exists it, api_string v true true = Ok it /\ str_value it = Some v
    /\ item_string it = [chSQ; chSQ; chSQ] ++ v ++ [chSQ; chSQ; chSQ]
    /\ value_of (item_string it) = Ok it /\ reads_as (item_string it) it (no_quote chSQ).
Proof. exact (fun v H1 H2 => api_mll v (conj H1 H2)). Qed.
Print Assumptions C07_literal_multiline_partial.
(** Which values are refused. *)
Theorem C07_literal_refusals : forall v : str,
  (api_string v true false = Err InvalidStringE <->
     exists c, In c v /\ ((is_control c = true /\ c <> chTAB) \/ c = chSQ)) /\
  (api_string v true true = Err InvalidStringE <->
     (exists c, In c v /\ is_control c = true /\ c <> chTAB /\ c <> chLF /\ c <> chCR)
     \/ exists a b, v = a ++ [chSQ; chSQ; chSQ] ++ b).
Proof. exact api_lit_refusals. Qed.
Print Assumptions C07_literal_refusals.
Example C07_example : exists it, api_string (L "C:\n''x'' #") true true = Ok it.
Proof. eexists. vm_compute. reflexivity. Qed.
Theorem C07_multiline_leading_newline_refuted :
  exists v it, api_string v true true = Ok it /\ str_value it = Some v
    /\ exists it', value_of (item_string it) = Ok it' /\ str_value it' <> Some v.
Proof.
  exists [13; 10; 97]%N. eexists. split; [vm_compute; reflexivity|]. split; [reflexivity|].
  eexists. split; [vm_compute; reflexivity|]. discriminate.
Qed.
Print Assumptions C07_multiline_leading_newline_refuted.

(** C08: whatever order the set of escape sequences is iterated in, the result is
    the same, and it is clean: a backslash protects exactly one following
    non-control character; apart from that no quote and no control character (in
    the multi-line case: no three quotes in a row, no control character but LF
    and CR). *)
Theorem C08_escape_deterministic_and_clean : forall (order : list str) (v : str),
  (Permutation order (escaped_sequences SLB) ->
     escape_string order v = escape_string (escaped_sequences SLB) v
     /\ clean (fun _ => false) (escape_string order v) = true) /\
  (Permutation order (escaped_sequences MLB) ->
     escape_string order v = escape_string (escaped_sequences MLB) v
     /\ clean_ml 0 (escape_string order v) = true).
Proof. exact (fun order v => conj (escape_clean_slb order v) (escape_clean_mlb order v)). Qed.
Print Assumptions C08_escape_deterministic_and_clean.
Example C08_example : Permutation (rev (escaped_sequences MLB)) (escaped_sequences MLB)
  /\ escape_string (rev (escaped_sequences MLB)) (L "a""""""" ++ [7]%N) = L "a""""\""\u0007".
Proof. split; [symmetry; apply Permutation_rev|vm_compute; reflexivity]. Qed.
(** What [clean] rejects. *)
Example C08_clean_rejects :
  clean (fun _ => false) (L "a""") = false /\ clean (fun _ => false) [97; 10]%N = false
  /\ clean (fun _ => false) (L "a\") = false /\ clean_ml 0 (L "x""""""") = false.
Proof. repeat split. Qed.
