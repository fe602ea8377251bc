(** Property C52 for arrays of tables: a refused operation changes nothing. *)
From Verif Require Import Base Source Utils Items Container Arrays ListSpec AotObj PropAot FailAot.
Open Scope nat_scope.

(** Specification: the tables before the first object that is refused; the operations of a history on a plain list. *)
Fixpoint leading (l : list targ) : list nat := match l with TTable x :: l => x :: leading l | _ => [] end.
Definition plain_op (o : lop targ) : option (lop nat) :=
  match o with
  | LAppend (TTable x) => Some (LAppend x)
  | LExtend l => Some (LExtend (leading l))
  | LInsert i (TTable x) => Some (LInsert i x)
  | LDel i => Some (LDel i)
  | LPop i => Some (LPop i)
  | LClear => Some LClear
  | LAppend _ | LInsert _ _ | LSet _ _ | LReverse => None
  end.
Fixpoint plain_ops (os : list (lop targ)) : list (lop nat) :=
  match os with [] => [] | o :: os => match plain_op o with Some o' => o' :: plain_ops os | None => plain_ops os end end.
(** When an operation on a list of these tables raises, and what. *)
Definition raises (l : list nat) (o : lop targ) (w : why) : Prop :=
  match o with
  | LAppend TOther | LInsert _ TOther => w = WItem ValueErrorE
  | LAppend (TBad e) | LInsert _ (TBad e) => w = WItem e
  | LExtend xs => exists xs1 a xs2, xs = map TTable xs1 ++ a :: xs2 /\ match a with TTable _ => False | TOther => w = WItem ValueErrorE | TBad e => w = WItem e end
  | LSet _ _ => w = WNotImplemented
  | LReverse => 2 <= List.length l /\ w = WNotImplemented
  | LDel i | LPop i => py_index (List.length l) i = None /\ w = WIndex
  | _ => False
  end.

Lemma insert_table parsed t i x o : insert_x parsed t i (TTable x) o = (Done, ao_insert parsed t o i x).
Proof.
  destruct o as [b l h]. unfold insert_x, view_, then_, set_heap, set_body, set_list, ao_insert, pass. cbn [o_body o_list o_heap]. cbv zeta.
  destruct parsed; [reflexivity|]. cbn [fst snd]. 
  destruct (if (0 <? aot_index (List.length b) i) && (0 <? List.length b) then nth_error b (aot_index (List.length b) i - 1) else None) as [y|]; cbn [o_body o_list o_heap];
  destruct (if S (aot_index (List.length b) i) <? List.length b then nth_error b (S (aot_index (List.length b) i)) else None) as [z|]; reflexivity.
Qed.
Lemma append_table parsed t x o : append_x parsed t (TTable x) o = (Done, ao_append parsed t o x).
Proof. unfold append_x, view_. rewrite insert_table. reflexivity. Qed.
Lemma extend_tables parsed t l : forall o, exists oc, extend_x parsed t l o = (oc, fold_left (fun o x => ao_append parsed t o x) (leading l) o) /\ forall w, oc = Raised w -> raises [] (LExtend l) w.
Proof.
  induction l as [|a l IH]; intros o; cbn [extend_x leading fold_left]; [exists Done; split; [reflexivity|discriminate]|]. destruct a as [x| |e].
  - unfold then_. rewrite append_table. destruct (IH (ao_append parsed t o x)) as (oc & E & R). exists oc. split; [exact E|]. intros w W. destruct (R w W) as (xs1 & a & xs2 & -> & A). exists (x :: xs1), a, xs2. split; [reflexivity|exact A].
  - exists (Raised (WItem ValueErrorE)). split; [reflexivity|]. intros w [= <-]. exists [], TOther, l. split; reflexivity.
  - exists (Raised (WItem e)). split; [reflexivity|]. intros w [= <-]. exists [], (TBad e), l. split; reflexivity.
Qed.
Lemma del_table i o : o_list o = o_body o -> del_x i o = match ao_del o i with AOk o' => (Done, o') | _ => (Raised WIndex, o) end.
Proof. destruct o as [b l h]. cbn [o_list o_body]. intros ->. unfold del_x, then_, set_body, set_list, ao_del, py_del. cbn [o_list o_body o_heap]. destruct (py_index (List.length b) i) eqn:E; cbn [abind o_list o_body o_heap]; rewrite ?E; reflexivity. Qed.
Lemma get_del i o : o_list o = o_body o -> (exists x, ao_get o i = AOk x) \/ (ao_get o i = AIndexError /\ ao_del o i = AIndexError /\ py_index (List.length (o_body o)) i = None).
Proof.
  intros H. unfold ao_get. destruct (py_index _ _) as [p|] eqn:E; [left|right].
  - destruct (nth_error (o_body o) p) eqn:N; [eexists; reflexivity|]. exfalso. apply py_index_lt in E. apply nth_error_None in N. lia.
  - repeat split. pose proof (del_step o i H) as D. rewrite E in D. exact D.
Qed.
Lemma pop_table i o : o_list o = o_body o -> pop_x i o = del_x i o.
Proof.
  intros H. unfold pop_x. unfold then_ at 1. unfold view_. destruct (get_del i o H) as [[x E]|(E & D & _)]; rewrite E; [reflexivity|]. rewrite (del_table i o H), D. reflexivity.
Qed.
Lemma clear_table n : forall o, o_list o = o_body o -> clear_x n o = (Done, ao_clear n o).
Proof.
  induction n as [|n IH]; intros o H; cbn [clear_x ao_clear]; [reflexivity|]. rewrite (pop_table (-1) o H), (del_table (-1) o H), pop_del. pose proof (del_step o (-1) H) as D.
  destruct (py_index _ _) as [p|]; [|rewrite D; reflexivity]. destruct D as (o' & -> & S & _). apply IH, S.
Qed.
(** One operation. *)
Lemma act_step parsed t op o : o_list o = o_body o ->
  let '(oc, o') := act_of parsed t op o in
  o_list o' = o_body o' /\ heap_kept (o_heap o) (o_heap o') /\
  o_body o' = match plain_op op with Some p => match lstep (o_body o) p with Some l => l | None => o_body o end | None => o_body o end /\
  match oc with
  | Done => match op with LReverse => List.length (o_body o) < 2 | LExtend _ => True | _ => exists p l, plain_op op = Some p /\ lstep (o_body o) p = Some l end
  | Raised w => raises (o_body o) op w /\ match op with LExtend _ => True | _ => o' = o end
  end.
Proof.
  intros H. destruct op as [a|l|i a|i a|i|i| |]; cbn [act_of].
  - destruct a as [x| |e]; [rewrite append_table|unfold append_x, view_, insert_x, throw; cbn; auto 10 using heap_refl..].
    destruct (append_step parsed t o x H) as (A & B & C). cbn [plain_op lstep]. split; [exact A|]. split; [exact C|]. split; [exact B|]. eexists _, _. split; reflexivity.
  - destruct (extend_tables parsed t l o) as (oc & -> & R). destruct (extend_step parsed t (leading l) o H) as (A & B & C). cbn [plain_op lstep]. split; [exact A|]. split; [exact C|]. split; [exact B|].
    destruct oc; [exact I|]. split; [apply R; reflexivity|exact I].
  - destruct a as [x| |e]; [rewrite insert_table|unfold insert_x, throw; cbn; auto 10 using heap_refl..].
    destruct (insert_step parsed t o i x H) as (A & B & C). cbn [plain_op lstep]. split; [exact A|]. split; [exact C|]. split; [exact B|]. eexists _, _. split; reflexivity.
  - cbn. auto 10 using heap_refl.
  - rewrite (del_table i o H). cbn [plain_op lstep raises]. pose proof (del_step o i H) as D. destruct (py_index _ _) as [p|] eqn:E; [destruct D as (o' & -> & A & B & C)|rewrite D]; cbn [option_map].
    + split; [exact A|]. split; [rewrite C; apply heap_refl|]. split; [exact B|]. eexists _, _. split; [reflexivity|cbn [lstep]; rewrite E; reflexivity].
    + auto 10 using heap_refl.
  - rewrite (pop_table i o H), (del_table i o H). cbn [plain_op lstep raises]. pose proof (del_step o i H) as D. destruct (py_index _ _) as [p|] eqn:E; [destruct D as (o' & -> & A & B & C)|rewrite D]; cbn [option_map].
    + split; [exact A|]. split; [rewrite C; apply heap_refl|]. split; [exact B|]. eexists _, _. split; [reflexivity|cbn [lstep]; rewrite E; reflexivity].
    + auto 10 using heap_refl.
  - unfold view_. rewrite (clear_table _ o H). destruct (clear_step (ao_len o) o H (le_n _)) as (A & B & C). cbn [plain_op lstep]. split; [exact A|]. split; [rewrite C; apply heap_refl|]. split; [exact B|]. eexists _, _. split; reflexivity.
  - unfold view_, throw, pass, ao_len. destruct (Nat.leb_spec 2 (List.length (o_body o))); cbn [o_list o_body o_heap plain_op raises]; (split; [exact H|]); (split; [apply heap_refl|]); auto 10.
Qed.

(** C52, arrays of tables: from any array of tables, made or parsed, after any history of append, extend, insert, assignment, deletion, pop, clear and
    reverse, with tables, items of other kinds and objects that [item()] refuses, at any index, each operation going on with what the one before left
    behind: the tables are those of the plain list that has seen the operations not refused (assignment and reverse always are), both lists agree and no
    table has changed but in the indentation of its header.  A further operation that raises does so for the reason given in [raises] and leaves exactly
    the same object; [extend] that raises has appended the tables before the object refused.  One that does not raise does what it does to the list. *)
Theorem C52_tables : forall parsed t o os, o_list o = o_body o ->
  let o' := acts parsed t o os in
  o_body o' = lrun (o_body o) (plain_ops os) /\ o_list o' = o_body o' /\ heap_kept (o_heap o) (o_heap o') /\
  (forall op w o2, act_of parsed t op o' = (Raised w, o2) -> raises (o_body o') op w /\
     match op with LExtend xs => o_body o2 = o_body o' ++ leading xs /\ o_list o2 = o_body o2 /\ heap_kept (o_heap o') (o_heap o2) | _ => o2 = o' end) /\
  (forall op o2, act_of parsed t op o' = (Done, o2) -> match op with LReverse => o_body o2 = o_body o' /\ List.length (o_body o') < 2 | _ => exists p, plain_op op = Some p /\ lstep (o_body o') p = Some (o_body o2) end).
Proof.
  intros parsed t o os. revert o. induction os as [|op os IH]; intros o H; cbn [acts plain_ops lrun].
  - split; [reflexivity|]. split; [exact H|]. split; [apply heap_refl|]. split.
    + intros op w o2 E. pose proof (act_step parsed t op o H) as X. rewrite E in X. destruct X as (A & B & C & R & D). split; [exact R|]. destruct op; try exact D. cbn [plain_op lstep] in C. auto.
    + intros op o2 E. pose proof (act_step parsed t op o H) as X. rewrite E in X. destruct X as (A & B & C & D). destruct op; try (destruct D as (p & l & D1 & D2); exists p; split; [exact D1|]; rewrite D1, D2 in C; rewrite C; exact D2).
      * eexists. split; [reflexivity|]. cbn [plain_op lstep] in *. rewrite C. reflexivity.
      * split; [exact C|exact D].
  - pose proof (act_step parsed t op o H) as X. destruct (act_of parsed t op o) as [oc o1]. cbn [snd]. destruct X as (A & B & C & _). destruct (IH o1 A) as (I1 & I2 & I3 & I4). split; [|split; [exact I2|split; [eapply heap_trans; eassumption|exact I4]]].
    rewrite I1, C. destruct (plain_op op); reflexivity.
Qed.
Print Assumptions C52_tables.

(** A case: a refused insertion, an assignment, an extension stopped in the middle, a deletion out of range. *)
Definition C52_moves : list (lop targ) := [LAppend (TTable 1); LInsert 0 TOther; LSet 0 (TTable 9); LExtend [TTable 2; TBad TypeErrorE; TTable 5]; LDel 7; LPop (-3); LReverse; LInsert (-9) (TTable 3)].
Example C52_tables_example : o_list sample = o_body sample /\ lrun [] (plain_ops C52_moves) = [3; 1; 2] /\
  ao_text (L "a") (acts false aot_trivia sample C52_moves) = L "[[a]]" ++ [chLF] ++ L "x = 3" ++ [chLF] ++ L "[[a]]" ++ [chLF] ++ L "x = 1" ++ [chLF; chLF] ++ L "[[a]]" ++ [chLF] ++ L "x = 2" ++ [chLF] /\
  fst (act_of false aot_trivia (LExtend [TTable 4; TOther]) (acts false aot_trivia sample C52_moves)) = Raised (WItem ValueErrorE).
Proof. split; [reflexivity|]. split; [vm_compute; reflexivity|]. split; [vm_compute; reflexivity|vm_compute; reflexivity]. Qed.
