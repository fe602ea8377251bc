(** Property C52: a refused operation changes nothing. *)
From Verif Require Import Base Source Utils Items Container Arrays Parser Api Text ArrayText Lemmas Consist Wf ListSpec OMap ArrayLemmas ContOps ContText Edit MadeNeat EditAll PropContainers PropArrays Failing FailSpec FailFacts.
Open Scope nat_scope.
Definition nl : str := [10]%N.

(** C52, tables: let [c] be any parsed document, or any table in it, after any history of additions, assignments and deletions of values in which
    every operation may have been refused (the key is there already or is missing, or the object given is one that [item()] does not
    convert), each going on with whatever the one before left behind.  Then [c] is the ordered dict that has seen the operations not
    refused; and if a further operation raises, it leaves exactly [c].
    Missing: assignments over tables, dotted keys (false: C52_refuted), keys of tables defined in several places. *)
Theorem C52_document_partial : forall s d p m t os, parse s = Ok d -> table_at None d p = Some (m, t) -> allowed_args (view t) os ->
  let c := runs cmd_of t os in
  agrees c (orun (view t) (map ContOps.shown (accepted os))) /\
  forall o e c', allowed_arg (view c) o -> cmd_of o c = (Err e, c') -> c' = c.
Proof.
  intros s d p m t os H T A c. destruct (ok_parts t (table_at_ok p None d m t (parsed_ok s d H) T)) as (C & _). destruct (runs_ok os t C A) as (_ & C' & V). fold c in C', V. split; [rewrite <- V; apply view_agrees, C'|].
  intros o e c' Ao E. pose proof (cmd_ok c o C' Ao) as X. destruct (effective o) as [o'|].
  - rewrite X in E. unfold outcome_of in E. destruct (cstep c o'); [discriminate|]. injection E as _ <-. reflexivity.
  - destruct X as [e' X]. rewrite X in E. injection E as _ <-. reflexivity.
Qed.
Print Assumptions C52_document_partial.

(** C52, arrays: the same for any parsed array under any history of append, extend, insert, assignment, deletion, pop, clear and reverse: the list
    seen is the plain list that has seen the operations not refused, the text shows exactly these values, and an operation other than [extend] that raises
    leaves everything as it was; [extend] that raises has appended the objects before the one it could not convert. *)
Theorem C52_array : forall strict n st gs t ml st' os, parse_value strict n st = (Ok (IArray gs t ml), st') -> real_args os ->
  let a := runs array_cmd (arr_of gs) os in let l := lrun (reals gs) (list_ops os) in
  (a_list a = map LItem l /\ exists text, arr_string a = brackets text /\ laid_out deco (map item_string l) text) /\
  forall o e a', real_args [o] -> array_cmd o a = (Err e, a') ->
    match o with LExtend xs => a_list a' = map LItem (l ++ goods xs) /\ exists text, arr_string a' = brackets text /\ laid_out deco (map item_string (l ++ goods xs)) text | _ => a' = a end.
Proof.
  intros strict n st gs t ml st' os H V a l. destruct (parsed_sync _ _ _ _ _ _ _ H) as (_ & S & R & G & _). destruct (array_runs os _ _ S R V) as (E & S' & R'). fold a in E, S'. fold l in S', R'.
  assert (Good : forall os', gsok (arr_run (arr_of gs) os')) by (intros os'; apply run_ok, G). assert (Ga : gsok a) by (rewrite E; apply Good). split.
  - destruct S' as (A & B & _). split; [exact A|]. exists (flat_map gtext (a_groups a)). split; [reflexivity|]. rewrite <- B. apply groups_laid, Ga.
  - intros o e a' Vo Eo. inversion Vo as [|? ? V1 _]; subst. pose proof (array_cmd_ok a l o S' R' V1) as (X & Y & _). rewrite Eo in X, Y. cbn [fst snd] in X, Y. destruct o as [x|xs|i x|i x|i|i| |]; try (apply Y with e; reflexivity).
    cbn [list_op lop_values] in X, V1. destruct (extend_sync (goods xs) a l S' V1) as (a2 & E2 & S2). cbn [arr_step] in X. rewrite E2 in X. subst a'. pose proof S2 as (A & B & _). split; [exact A|].
    exists (flat_map gtext (a_groups a2)). split; [reflexivity|]. rewrite <- B. apply groups_laid. apply (step_ok a (LExtend (goods xs))); [exact Ga|exact E2].
Qed.
Print Assumptions C52_array.

(** Cases. *)
Definition unconvertible : arg := Bad TypeErrorE.
Definition int_of (z : Z) : arg := Good (int_val z).
Definition C52_calls : list (cop arg) := [CAdd (L "a") (int_of 2); CSet (L "b") unconvertible; CDel (L "z"); CAdd (L "c") (int_of 3); CAdd (L "c") (int_of 4); CSet (L "a") unconvertible; CSet (L "a") (int_of 5); CDel (L "q")].
Example C52_example : exists d, parse (L "a = 1 # one" ++ nl ++ L "[t]" ++ nl) = Ok d /\ allowed_args (view d) C52_calls /\ cont_string (runs cmd_of d C52_calls) = L "a = 5 # one" ++ nl ++ L "c = 3" ++ nl ++ L "[t]" ++ nl /\
  cmd_of (CAdd (L "c") (int_of 4)) (runs cmd_of d C52_calls) = (Err (KeyAlreadyPresentE (L "c")), runs cmd_of d C52_calls).
Proof. eexists. split; [vm_compute; reflexivity|]. split; [vm_compute; repeat split; discriminate|]. split; [vm_compute; reflexivity|vm_compute; reflexivity]. Qed.
Definition C52_list : list (lop arg) := [LAppend unconvertible; LSet 9 (int_of 1); LExtend [int_of 7; unconvertible; int_of 8]; LDel (-9); LPop 5; LInsert 0 (int_of 6)].
Definition array_read (s : str) : arr := match value_of s with Ok (IArray gs _ _) => arr_of gs | _ => arr_empty end.
Example C52_array_example : real_args C52_list /\ arr_string (runs array_cmd (array_read (L "[1, 2]")) C52_list) = L "[6,1, 2, 7]".
Proof. split; [|vm_compute; reflexivity]. unfold real_args. repeat (apply Forall_cons; [cbn; repeat constructor|]). apply Forall_nil. Qed.

(** Where the claim is false: adding a dotted key that is there already is refused with the key in the document twice, and what is written then
    is no TOML; an assignment to a slice of an array is refused with the list changed and the text not. *)
Definition dotted (a b : str) : key := KDotted [skey_of_str a; skey_of_str b] (L " = ") (a ++ L "." ++ b).
Theorem C52_refuted :
  (exists d c', parse (L "a.b = 1" ++ nl) = Ok d /\ append_dotted_x (dotted (L "a") (L "b")) (Good (IVal (SInt 2 (L "2")) default_trivia)) d = (Err (KeyAlreadyPresentE (L "b")), c') /\
     cont_string c' = L "a.b = 1" ++ nl ++ L "a.b = 2" ++ nl /\ forall d2, parse (cont_string c') <> Ok d2) /\
  (exists a', put_slice_x (Some 0%Z) (Some 1%Z) (Good (IArray [mkGroup None (Some (int_val 9)) None None] default_trivia false)) (array_read (L "[1, 2]")) = (Err ValueErrorE, a') /\
     List.length (a_list (array_read (L "[1, 2]"))) = 2 /\ hd_error (a_list a') = Some (LItem (int_val 9)) /\ arr_string a' = L "[1, 2]").
Proof.
  split.
  - eexists _, _. split; [vm_compute; reflexivity|]. split; [vm_compute; reflexivity|]. split; [vm_compute; reflexivity|]. intros d2. vm_compute. discriminate.
  - eexists. split; [vm_compute; reflexivity|]. split; [vm_compute; reflexivity|]. split; [vm_compute; reflexivity|vm_compute; reflexivity].
Qed.
Print Assumptions C52_refuted.
