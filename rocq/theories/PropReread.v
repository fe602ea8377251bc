(** Property C41: an edited array reads back as the list it stands for. *)
From Verif Require Import Base Source Utils Items Container Arrays Parser PyVal PyItem ListSpec ArrayLemmas ArrayText ArrayTidy ArrayLines Denote CompValue Reread Written PropArrays.
Open Scope nat_scope.

(** The text stands for the list [vs] in TOML (Denote.v), and [tomlkit.value(text)]
    unwraps to it. *)
Definition rereads (text : str) (vs : list pyv) : Prop :=
  denotes text (PList vs) /\ exists it, value_of text = Ok it /\ unwrap it = Some (PList vs).
Lemma rereads_commas ws s vs : comma_list ws s -> Forall2 denotes ws vs -> rereads (brackets s) vs.
Proof. intros C F. assert (D : denotes (brackets s) (PList vs)) by (apply dn_array; exact (comma_elements ws s C vs F)). split; [exact D|apply denotes_value, D]. Qed.

(** C41.  An array read from a text, in one of the shapes of C23 ([tidy]), under any
    history of list operations: if the texts of the values it then holds stand for
    [vs], the array's text stands for the list [vs]. *)
Theorem C41_edited_partial : forall strict n st gs t ml st' os ln vs,
  parse_value strict n st = (Ok (IArray gs t ml), st') -> tidy ln gs -> values_only os ->
  Forall2 denotes (map item_string (lrun (reals gs) os)) vs ->
  rereads (arr_string (arr_run (arr_of gs) os)) vs.
Proof.
  intros strict n st gs t ml st' os ln vs H T V D. destruct (C23_commas_partial strict n st gs t ml st' os ln H T V) as (text & -> & C). exact (rereads_commas _ _ _ C D).
Qed.
Print Assumptions C41_edited_partial.
(** Built from nothing by list operations. *)
Theorem C41_created : forall os vs, values_only os -> Forall2 denotes (map item_string (lrun [] os)) vs -> rereads (arr_string (arr_run arr_empty os)) vs.
Proof. intros os vs V D. destruct (C23_created os V) as (text & -> & C). exact (rereads_commas _ _ _ C D). Qed.
Print Assumptions C41_created.
(** Written line by line with [add_line], with comments. *)
Theorem C41_lines : forall ls ind vs, Forall aline_ok ls -> Forall nonblank ls -> wstr ind ->
  Forall2 denotes (map item_string (flat_map values_of ls)) vs ->
  rereads (arr_string (aop_run arr_empty (map add_of ls ++ [ALine [] ind None true true]))) vs.
Proof. intros ls ind vs O N W D. destruct (C23_lines ls ind O N W) as [-> C]. exact (rereads_commas _ _ _ C D). Qed.
Print Assumptions C41_lines.
(** Rendered with [multiline(True)]. *)
Theorem C41_multiline : forall strict n st gs t ml st' os tr vs,
  parse_value strict n st = (Ok (IArray gs t ml), st') -> values_only os -> wstr (tr_indent tr) ->
  Forall2 denotes (map item_string (lrun (reals gs) os)) vs ->
  rereads (item_string (IArray (a_groups (arr_run (arr_of gs) os)) tr true)) vs.
Proof. intros strict n st gs t ml st' os tr vs H V W D. destruct (C23_multiline strict n st gs t ml st' os tr H V W) as (text & -> & C). exact (rereads_commas _ _ _ C D). Qed.
Print Assumptions C41_multiline.

(** The sheet of [C23_lines_ex] meets the hypotheses of [C41_lines]. *)
Example C41_example : Forall2 denotes (map item_string (flat_map values_of C23_sheet)) [PInt 1; PInt 2; PInt 3].
Proof. repeat (constructor; [apply dn_int; match goal with |- int_means _ ?z => exact (int_written z) end|]). constructor. Qed.
