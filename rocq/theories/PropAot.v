(** Property theorems: arrays of tables as objects (C32).

    [aobj]: an AoT object: [o_body] ([self._body], what [len], indexing and rendering
    use), [o_list] (the underlying list), and the heap of Table objects.  [lop],
    [lrun], [lstep] (ListSpec.v) are the operations of a plain Python list. *)
From Verif Require Import Base Source Utils Items Container Arrays Parser Lemmas Render Consist ListSpec AotObj.
From Coq Require Import ZifyBool ZifyNat ZifyN.
Open Scope nat_scope.

(** Two tables that differ in nothing but the indentation of their header. *)
Definition same_but_indent (x y : table) : Prop :=
  fst x = fst y /\ exists ind, snd y = set_tm_trivia (with_indent ind (tm_trivia (snd x))) (snd x).
Definition heap_kept (h h' : nat -> table) : Prop := forall y, same_but_indent (h y) (h' y).
Lemma sbi_refl x : same_but_indent x x.
Proof. destruct x as [c [[i w cm tl] a su n d]]. split; [reflexivity|]. exists i. reflexivity. Qed.
Lemma sbi_trans x y z : same_but_indent x y -> same_but_indent y z -> same_but_indent x z.
Proof.
  destruct x as [c [[i w cm tl] a su n d]], y as [c1 m1], z as [c2 m2]. intros [A [i1 B]] [A' [i2 B']]. cbn in *. subst. split; [reflexivity|]. exists i2. reflexivity.
Qed.
Lemma sbi_reindent t x : same_but_indent x (reindent t x).
Proof. unfold reindent. destruct (first_spaces _); [|apply sbi_refl]. destruct x as [c m]. split; [reflexivity|]. eexists. reflexivity. Qed.
Lemma sbi_nl x : same_but_indent x (nl_indent x).
Proof. destruct x as [c m]. split; [reflexivity|]. eexists. reflexivity. Qed.
Lemma heap_refl h : heap_kept h h.
Proof. intros y. apply sbi_refl. Qed.
Lemma heap_trans h h1 h2 : heap_kept h h1 -> heap_kept h1 h2 -> heap_kept h h2.
Proof. intros A B y. eapply sbi_trans; [apply A|apply B]. Qed.
Lemma heap_upd h x v : same_but_indent (h x) v -> heap_kept h (upd h x v).
Proof. intros H y. unfold upd. destruct (Nat.eqb_spec y x) as [->|]; [exact H|apply sbi_refl]. Qed.

Lemma insert_pos n i : aot_index n i = py_insert_pos n i.
Proof. unfold aot_index, py_insert_pos. destruct (Z.ltb_spec i 0); cbv zeta; repeat match goal with |- context [(?a <? ?b)%Z] => destruct (Z.ltb_spec a b) | |- context [(?a <=? ?b)%Z] => destruct (Z.leb_spec a b) end; lia. Qed.
Lemma insert_pos_le n i : py_insert_pos n i <= n.
Proof. unfold py_insert_pos. lia. Qed.
(** The two lists agree. *)
Notation in_step o := (o_list o = o_body o).
Lemma insert_step parsed t o i x : in_step o ->
  let o' := ao_insert parsed t o i x in let p := py_insert_pos (List.length (o_body o)) i in
  in_step o' /\ o_body o' = firstn p (o_body o) ++ x :: skipn p (o_body o) /\ heap_kept (o_heap o) (o_heap o').
Proof.
  intros Hs. cbv zeta. unfold ao_insert. rewrite insert_pos. set (p := py_insert_pos _ _). assert (Hp : p <= List.length (o_body o)) by apply insert_pos_le.
  cbn [o_list o_body o_heap]. rewrite Hs, Nat.min_l by exact Hp. split; [reflexivity|]. split; [reflexivity|].
  set (h1 := upd (o_heap o) x _). assert (K1 : heap_kept (o_heap o) h1) by (apply heap_upd, sbi_reindent). clearbody h1.
  destruct parsed; [exact K1|]. 
  generalize (if (0 <? p) && (0 <? List.length (o_body o)) then nth_error (o_body o) (p - 1) else None) (if S p <? List.length (o_body o) then nth_error (o_body o) (S p) else None). intros prev next. cbv zeta.
  set (h2 := match prev with Some y => if cont_nonempty (fst (h1 y)) && negb (has_nl_indent (h1 x)) then upd h1 x (nl_indent (h1 x)) else h1 | None => h1 end). assert (K2 : heap_kept (o_heap o) h2).
  { unfold h2. destruct prev; [|exact K1]. destruct (_ && _); [|exact K1]. eapply heap_trans; [exact K1|]. apply heap_upd, sbi_nl. }
  clearbody h2. destruct next; [|exact K2]. destruct (_ && _); [|exact K2]. eapply heap_trans; [exact K2|]. apply heap_upd, sbi_nl.
Qed.
Lemma append_step parsed t o x : in_step o -> let o' := ao_append parsed t o x in in_step o' /\ o_body o' = o_body o ++ [x] /\ heap_kept (o_heap o) (o_heap o').
Proof.
  intros S. destruct (insert_step parsed t o (Z.of_nat (List.length (o_body o))) x S) as (A & B & C). cbv zeta in *. split; [exact A|]. split; [|exact C]. unfold ao_append. rewrite B.
  replace (py_insert_pos _ _) with (List.length (o_body o)) by (unfold py_insert_pos; destruct (Z.ltb_spec (Z.of_nat (List.length (o_body o))) 0); lia). rewrite firstn_all, skipn_all. reflexivity.
Qed.
Lemma extend_step parsed t xs : forall o, in_step o -> let o' := fold_left (fun o x => ao_append parsed t o x) xs o in
  in_step o' /\ o_body o' = o_body o ++ xs /\ heap_kept (o_heap o) (o_heap o').
Proof.
  induction xs as [|x xs IH]; intros o S; cbn [fold_left]; [rewrite app_nil_r; auto using heap_refl|]. destruct (append_step parsed t o x S) as (A & B & C). destruct (IH _ A) as (A' & B' & C').
  split; [exact A'|]. split; [rewrite B', B, <- app_assoc; reflexivity|]. eapply heap_trans; eassumption.
Qed.
Lemma del_step o i : in_step o -> match py_index (List.length (o_body o)) i with
  | Some p => exists o', ao_del o i = AOk o' /\ in_step o' /\ o_body o' = firstn p (o_body o) ++ skipn (S p) (o_body o) /\ o_heap o' = o_heap o
  | None => ao_del o i = AIndexError end.
Proof.
  unfold ao_del, py_del. intros S. rewrite S. destruct (py_index _ _) as [p|] eqn:E; cbn [abind]; [|reflexivity]. eexists. split; [reflexivity|]. cbn. auto.
Qed.
Lemma py_index_lt n i p : py_index n i = Some p -> p < n.
Proof. unfold py_index. destruct (_ || _)%bool eqn:E; [discriminate|]. intros H. inversion H. apply orb_false_iff in E as [E1 E2]. destruct (Z.ltb_spec i 0); lia. Qed.
Lemma pop_del o i : ao_pop o i = ao_del o i.
Proof.
  unfold ao_pop, ao_get. destruct (py_index _ _) as [p|] eqn:E.
  - destruct (nth_error (o_body o) p) eqn:N; [reflexivity|]. exfalso. apply py_index_lt in E. apply nth_error_None in N. lia.
  - unfold ao_del, py_del. rewrite E. reflexivity.
Qed.
Lemma clear_step n : forall o, in_step o -> List.length (o_body o) <= n -> let o' := ao_clear (S n) o in in_step o' /\ o_body o' = [] /\ o_heap o' = o_heap o.
Proof.
  induction n as [|n IH]; intros o S L; cbn [ao_clear]; rewrite pop_del; pose proof (del_step o (-1) S) as D.
  - destruct (o_body o) eqn:E; [|cbn in L; lia]. cbn in D. rewrite D. rewrite E. auto.
  - destruct (py_index (List.length (o_body o)) (-1)) as [p|] eqn:E.
    + destruct D as (o' & -> & D1 & D2 & D3). pose proof (py_index_lt _ _ _ E) as Hp. destruct (IH o' D1) as (I1 & I2 & I3).
      { rewrite D2, app_length, firstn_length, skipn_length. lia. }
      cbn [ao_clear] in *. rewrite D3 in I3. auto.
    + rewrite D. destruct (o_body o) eqn:Eb; [auto|]. unfold py_index in E. cbn in E. destruct (_ || _)%bool eqn:X in E; [|discriminate]. exfalso. cbn [List.length] in X. clear -X. lia.
Qed.

(** C32.  One operation: what the array of tables does is what the list does; it
    raises IndexError exactly when the list does.  Assignment (and [reverse] of two
    or more tables, which assigns) raises NotImplementedError.  No operation changes
    anything of a table but the indentation of its header. *)
Theorem C32_step : forall parsed t o op, o_list o = o_body o ->
  match ao_step parsed t o op with
  | AOk o' => lstep (o_body o) op = Some (o_body o') /\ o_list o' = o_body o' /\ heap_kept (o_heap o) (o_heap o')
  | AIndexError => lstep (o_body o) op = None
  | ANotImplemented => match op with LSet _ _ => True | LReverse => 2 <= ao_len o | _ => False end
  end.
Proof.
  intros parsed t o op S. 
  assert (D : forall i, match ao_del o i with AOk o' => option_map (fun p => firstn p (o_body o) ++ skipn (1 + p) (o_body o)) (py_index (List.length (o_body o)) i) = Some (o_body o') /\ o_list o' = o_body o' /\ heap_kept (o_heap o) (o_heap o')
     | AIndexError => option_map (fun p => firstn p (o_body o) ++ skipn (1 + p) (o_body o)) (py_index (List.length (o_body o)) i) = None | ANotImplemented => False end).
  { intros i. pose proof (del_step o i S) as D. destruct (py_index _ i) as [p|]; [|rewrite D; reflexivity]. destruct D as (o' & -> & D1 & D2 & D3). cbn [option_map]. split; [rewrite D2; reflexivity|]. split; [exact D1|]. rewrite D3. apply heap_refl. }
  destruct op as [x|xs|i x|i x|i|i| |]; cbn [ao_step lstep].
  - destruct (append_step parsed t o x S) as (A & B & C). split; [rewrite B; reflexivity|split; [exact A|exact C]].
  - destruct (extend_step parsed t xs o S) as (A & B & C). split; [rewrite B; reflexivity|split; [exact A|exact C]].
  - destruct (insert_step parsed t o i x S) as (A & B & C). split; [rewrite B; reflexivity|split; [exact A|exact C]].
  - exact I.
  - specialize (D i). destruct (ao_del o i); [exact D|exact D|destruct D].
  - rewrite pop_del. specialize (D i). destruct (ao_del o i); [exact D|exact D|destruct D].
  - destruct (clear_step (ao_len o) o S (le_n _)) as (A & B & C). split; [rewrite B; reflexivity|]. split; [exact A|]. rewrite C. apply heap_refl.
  - destruct (Nat.leb_spec 2 (ao_len o)); [assumption|]. split; [|auto using heap_refl]. unfold ao_len in *. destruct (o_body o) as [|a [|b l]]; cbn in *; try reflexivity; lia.
Qed.
Print Assumptions C32_step.
Definition no_assign (op : lop nat) : Prop := match op with LSet _ _ | LReverse => False | _ => True end.
(** Any history. *)
Theorem C32_history : forall parsed t ops o, o_list o = o_body o -> Forall no_assign ops ->
  let o' := ao_run parsed t o ops in
  o_body o' = lrun (o_body o) ops /\ o_list o' = o_body o' /\ heap_kept (o_heap o) (o_heap o').
Proof.
  intros parsed t. induction ops as [|op ops IH]; intros o S H; cbn [ao_run lrun]; [auto using heap_refl|]. inversion H; subst. pose proof (C32_step parsed t o op S) as Q.
  destruct (ao_step parsed t o op) as [o1| |].
  - destruct Q as (Q1 & Q2 & Q3). rewrite Q1. destruct (IH o1 Q2) as (I1 & I2 & I3); [assumption|]. split; [exact I1|]. split; [exact I2|]. eapply heap_trans; eassumption.
  - rewrite Q. apply IH; assumption.
  - destruct op; try contradiction. 
Qed.
Print Assumptions C32_history.
(** Deleting a slice. *)
Theorem C32_slice : forall sel o, o_list o = o_body o -> o_list (ao_del_slice sel o) = o_body (ao_del_slice sel o) /\ o_body (ao_del_slice sel o) = del_sel sel (o_body o) /\ o_heap (ao_del_slice sel o) = o_heap o.
Proof. intros sel o S. unfold ao_del_slice. cbn. rewrite S. auto. Qed.
(** [len], indexing and the rendered tables after any history: the tables of the
    plain list, in order, each with its old text but for the indentation. *)
Theorem C32_observed : forall parsed t ops o key, o_list o = o_body o -> Forall no_assign ops ->
  let o' := ao_run parsed t o ops in let l := lrun (o_body o) ops in
  ao_len o' = List.length l
  /\ (forall i, ao_get o' i = match py_index (List.length l) i with Some p => match nth_error l p with Some x => AOk x | None => AIndexError end | None => AIndexError end)
  /\ exists inds, List.length inds = List.length l
     /\ ao_text key o' = flat_map (fun p : str * nat => render_aot_table (fst (o_heap o (snd p))) (set_tm_trivia (with_indent (fst p) (tm_trivia (snd (o_heap o (snd p))))) (snd (o_heap o (snd p)))) key) (combine inds l).
Proof.
  intros parsed t ops o key S H o' l. destruct (C32_history parsed t ops o S H) as (A & B & C). fold o' in A, B, C. fold l in A. unfold ao_len, ao_get. rewrite A. split; [reflexivity|]. split; [reflexivity|].
  unfold ao_text, ao_tables. rewrite A. clear A B. induction l as [|x l IH].
  - exists []. split; reflexivity.
  - destruct IH as (inds & L & E). destruct (C x) as [C1 [ind C2]]. exists (ind :: inds). split; [cbn; congruence|]. cbn [map flat_map combine fst snd]. rewrite E. f_equal. rewrite C1, C2. reflexivity.
Qed.
Print Assumptions C32_observed.

Lemma map_upd_set h y v l : forall q, nth_error l q = Some y -> NoDup l -> map (upd h y v) l = list_set q v (map h l).
Proof.
  induction l as [|z l IH]; intros [|q] E Hn; cbn in E; try discriminate; inversion Hn as [|? ? Hz Hl]; subst; cbn [map list_set]; unfold upd at 1.
  - inversion E; subst. rewrite Nat.eqb_refl. f_equal. apply map_ext_in. intros w Hw. unfold upd. destruct (Nat.eqb_spec w y); [subst; contradiction|reflexivity].
  - destruct (Nat.eqb_spec z y) as [->|]; [exfalso; apply Hz; eapply nth_error_In; exact E|]. f_equal. apply IH; assumption.
Qed.
(** The object model and the function the parser and [Container.append] use agree,
    for a table that is not in the array yet. *)
Theorem C32_matches_insert : forall parsed t o i x, NoDup (o_body o) -> ~ In x (o_body o) ->
  ao_tables (ao_insert parsed t o i x) = aot_insert (ao_tables o) parsed t i (o_heap o x).
Proof.
  intros parsed t o i x Hn Hx. unfold aot_insert, ao_tables. cbv zeta. change (match first_spaces (tr_indent t) with Some ind => let '(c, m) := o_heap o x in (c, set_tm_trivia (with_indent (indent_insert ind (tr_indent (tm_trivia m))) (tm_trivia m)) m) | None => o_heap o x end) with (reindent t (o_heap o x)). rewrite map_length. set (len := List.length (o_body o)). rewrite insert_pos. set (p := py_insert_pos len i). assert (Hp : p <= len) by apply insert_pos_le.
  unfold ao_insert. rewrite insert_pos. fold len. fold p. cbn [o_body o_heap]. cbv zeta. set (h1 := upd (o_heap o) x (reindent t (o_heap o x))).
  assert (U : forall h y v, y <> x -> upd h x v y = h y). { intros h y v Hy. unfold upd. destruct (Nat.eqb_spec y x); [contradiction|reflexivity]. }
  assert (Ux : forall h v, upd h x v x = v) by (intros; unfold upd; rewrite Nat.eqb_refl; reflexivity).
  assert (M : forall h v l, ~ In x l -> map (upd h x v) l = map h l). { intros h v l Hl. apply map_ext_in. intros y Hy. apply U. intros ->. contradiction. }
  assert (Li : forall (h : nat -> table), map h (list_insert p x (o_body o)) = list_insert p (h x) (map h (o_body o))).
  { intros h. unfold list_insert. rewrite map_app, firstn_map, skipn_map. reflexivity. }
  assert (In1 : forall q y, nth_error (o_body o) q = Some y -> y <> x) by (intros q y E ->; apply Hx; eapply nth_error_In; exact E).
  destruct parsed.
  { rewrite Li. unfold h1. rewrite Ux, M by exact Hx. reflexivity. }
  
  set (h2 := match (if (0 <? p) && (0 <? len) then nth_error (o_body o) (p - 1) else None) with Some y => if cont_nonempty (fst (h1 y)) && negb (has_nl_indent (h1 x)) then upd h1 x (nl_indent (h1 x)) else h1 | None => h1 end).
  set (x2 := if Nat.ltb 0 p && match nth_error (map (o_heap o) (o_body o)) (p - 1) with Some (c, _) => cont_nonempty c | None => false end && negb (has_nl_indent (reindent t (o_heap o x))) then nl_indent (reindent t (o_heap o x)) else reindent t (o_heap o x)).
  assert (H2 : h2 x = x2 /\ forall y, y <> x -> h2 y = o_heap o y).
  { unfold h2, x2. rewrite nth_error_map. destruct (Nat.ltb_spec 0 p) as [H0|H0].
    - replace (0 <? len) with true by (symmetry; apply Nat.ltb_lt; lia). cbn [andb]. destruct (nth_error (o_body o) (p - 1)) as [y|] eqn:E; cbn [option_map].
      + pose proof (In1 _ _ E) as Hy. assert (Hx1 : h1 x = reindent t (o_heap o x)) by apply Ux. assert (Hy1 : h1 y = o_heap o y) by (apply U, Hy). rewrite Hx1, Hy1. destruct (o_heap o y) as [cy my] eqn:Ey. cbn [fst]. destruct (cont_nonempty cy && _) eqn:Ec; [|split; [apply Ux|intros; apply U; assumption]].
        split; [apply Ux|]. intros z Hz. rewrite U by exact Hz. apply U, Hz.
      + cbn [andb]. split; [apply Ux|intros; apply U; assumption].
    - cbn [andb]. split; [apply Ux|intros; apply U; assumption]. }
  clearbody h2 x2. destruct H2 as [H2x H2]. assert (M2 : map h2 (o_body o) = map (o_heap o) (o_body o)). { apply map_ext_in. intros y Hy. apply H2. intros ->. contradiction. }
  destruct (Nat.ltb_spec (S p) len) as [H0|H0].
  - rewrite nth_error_map. destruct (nth_error (o_body o) (S p)) as [y|] eqn:E; cbn [option_map].
    + pose proof (In1 _ _ E) as Hy. rewrite (H2 y Hy). destruct (_ && _) eqn:Ec.
      * rewrite Li. unfold upd at 1. destruct (Nat.eqb_spec x y); [congruence|]. rewrite H2x. f_equal. rewrite <- M2. apply map_upd_set; assumption.
      * rewrite Li, H2x, M2. reflexivity.
    + rewrite Li, H2x, M2. reflexivity.
  - rewrite Li, H2x, M2. reflexivity.
Qed.
Print Assumptions C32_matches_insert.

(** Examples: two tables appended to an AoT made by the API, one inserted in front
    with a negative index, one deleted. *)
Definition tab (k : str) (v : Z) : table :=
  (match raw_append (empty_cont false) (Some (skey_of_str k)) (IVal (SInt v (dec_Z v)) (mkTrivia [] [] [] [chLF])) with Ok c => c | Err _ => empty_cont false end,
   mkTM (mkTrivia [] [] [] [chLF]) true None None None).
Definition sample : aobj := mkAobj [] [] (fun i => tab (L "x") (Z.of_nat i)).
Example C32_ex : let o := ao_run false aot_trivia sample [LAppend 1; LAppend 2; LInsert (-5) 3; LDel (-2); LDel 7] in
  o_body o = [3; 2] /\ o_list o = [3; 2] /\ ao_text (L "a") o = L "[[a]]" ++ [chLF] ++ L "x = 3" ++ [chLF; chLF] ++ L "[[a]]" ++ [chLF] ++ L "x = 2" ++ [chLF].
Proof. vm_compute. repeat split. Qed.
(** The list methods that AoT does not override act on the underlying list alone:
    [aot.sort(key=...)]. *)
Definition ao_sort (sorted : list nat -> list nat) (o : aobj) : aobj := mkAobj (o_body o) (sorted (o_list o)) (o_heap o).
Theorem C32_sort_refuted : exists o sorted, o_list o = o_body o /\ o_list (ao_sort sorted o) <> o_body (ao_sort sorted o).
Proof. exists (mkAobj [1; 2] [1; 2] (fun i => tab (L "x") (Z.of_nat i))), (@rev nat). split; [reflexivity|discriminate]. Qed.
(** A table appended to an array of tables that was parsed from a text without a
    final line end is glued to the last line. *)
Definition doc_aot (s : str) : option (list table * bool * trivia) :=
  match parse s with Ok d => match get_item d (L "a") with Some (IAoT l _ p t) => Some (l, p, t) | _ => None end | Err _ => None end.
Theorem C32_glued_refuted : match doc_aot (L "[[a]]" ++ [chLF] ++ L "x = 1") with
  | Some (l, p, t) => Some (flat_map (fun x => render_aot_table (fst x) (snd x) (L "a")) (aot_append l p t (tab (L "y") 2)))
  | None => None end = Some (L "[[a]]" ++ [chLF] ++ L "x = 1[[a]]" ++ [chLF] ++ L "y = 2" ++ [chLF]).
Proof. vm_compute. reflexivity. Qed.
