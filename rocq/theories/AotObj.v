(** Model: the AoT object with its two lists (items.py:1835-1936).

    An AoT keeps its tables in [self._body] and, being a subclass of [list], once
    more in itself; both hold references to the same Table objects.  Tables are
    therefore named by identities ([nat]) and live in a heap: changing the
    indentation of a table shows in both lists, and inserting one Table object twice
    is possible. *)
From Verif Require Import Base Source Utils Items Container Arrays ListSpec.
Open Scope nat_scope.

Notation table := (container * tmeta)%type.
Record aobj := mkAobj { o_body : list nat; o_list : list nat; o_heap : nat -> table }.
Definition upd (h : nat -> table) (x : nat) (v : table) : nat -> table := fun y => if Nat.eqb y x then v else h y.

(** A result, IndexError or NotImplementedError. *)
Inductive ares (A : Type) := AOk (a : A) | AIndexError | ANotImplemented.
Arguments AOk {A}. Arguments AIndexError {A}. Arguments ANotImplemented {A}.
Definition abind {A B} (r : ares A) (f : A -> ares B) : ares B := match r with AOk a => f a | AIndexError => AIndexError | ANotImplemented => ANotImplemented end.

(** Python's [l.insert(i, x)] for [i >= 0], [del l[i]], [l[i]]. *)
Definition list_del {A} (n : nat) (l : list A) : list A := firstn n l ++ skipn (S n) l.
Definition py_del {A} (l : list A) (i : Z) : ares (list A) :=
  match py_index (List.length l) i with Some p => AOk (list_del p l) | None => AIndexError end.

(** items.py:1905-1911: the indentation of the array of tables goes before the
    first space of the table's own. *)
Definition reindent (t : trivia) (x : table) : table :=
  match first_spaces (tr_indent t) with
  | Some ind => let '(c, m) := x in (c, set_tm_trivia (with_indent (indent_insert ind (tr_indent (tm_trivia m))) (tm_trivia m)) m)
  | None => x
  end.
(** items.py:1892-1922 [insert], for a value that is a Table. [prev_table and ...]
    tests the table's truth value: an empty table counts as no table. *)
Definition ao_insert (parsed : bool) (t : trivia) (o : aobj) (index : Z) (x : nat) : aobj :=
  let body := o_body o in
  let len := List.length body in
  let i := aot_index len index in
  let h := upd (o_heap o) x (reindent t (o_heap o x)) in
  let prev := if Nat.ltb 0 i && Nat.ltb 0 len then nth_error body (i - 1) else None in
  let next := if Nat.ltb (S i) len then nth_error body (S i) else None in
  let truthy h y := cont_nonempty (fst (h y)) in
  let h := if parsed then h else
    let h := match prev with
             | Some y => if truthy h y && negb (has_nl_indent (h x)) then upd h x (nl_indent (h x)) else h
             | None => h
             end in
    match next with
    | Some y => if truthy h y && negb (has_nl_indent (h y)) then upd h y (nl_indent (h y)) else h
    | None => h
    end in
  mkAobj (list_insert i x body) (list_insert (Nat.min i (List.length (o_list o))) x (o_list o)) h.
(** collections.abc.MutableSequence.append *)
Definition ao_append parsed t o x := ao_insert parsed t o (Z.of_nat (List.length (o_body o))) x.
(** items.py:1888-1890 [__delitem__]: the body first, then the list. *)
Definition ao_del (o : aobj) (i : Z) : ares aobj :=
  abind (py_del (o_body o) i) (fun b => abind (py_del (o_list o) i) (fun l => AOk (mkAobj b l (o_heap o)))).
(** [del aot[slice]]: a slice selects positions from the length alone. *)
Definition del_sel {A} (sel : nat -> nat -> bool) (l : list A) : list A :=
  map snd (filter (fun p => negb (sel (List.length l) (fst p))) (combine (seq 0 (List.length l)) l)).
Definition ao_del_slice (sel : nat -> nat -> bool) (o : aobj) : aobj := mkAobj (del_sel sel (o_body o)) (del_sel sel (o_list o)) (o_heap o).
(** items.py:1882-1883 [__getitem__], 1873-1874 [__len__] *)
Definition ao_get (o : aobj) (i : Z) : ares nat :=
  match py_index (List.length (o_body o)) i with
  | Some p => match nth_error (o_body o) p with Some x => AOk x | None => AIndexError end
  | None => AIndexError
  end.
Definition ao_len (o : aobj) : nat := List.length (o_body o).
(** MutableSequence.pop: [v = self[i]; del self[i]] *)
Definition ao_pop (o : aobj) (i : Z) : ares aobj := abind (ao_get o i) (fun _ => ao_del o i).
(** MutableSequence.clear: [pop()] until IndexError *)
Fixpoint ao_clear (fuel : nat) (o : aobj) : aobj :=
  match fuel with
  | O => o
  | S n => match ao_pop o (-1) with AOk o' => ao_clear n o' | _ => o end
  end.
(** MutableSequence.reverse swaps by assignment; [__setitem__] (items.py:1885-1886)
    is not implemented. *)
Definition ao_step (parsed : bool) (t : trivia) (o : aobj) (op : lop nat) : ares aobj :=
  match op with
  | LAppend x => AOk (ao_append parsed t o x)
  | LExtend xs => AOk (fold_left (fun o x => ao_append parsed t o x) xs o)
  | LInsert i x => AOk (ao_insert parsed t o i x)
  | LSet _ _ => ANotImplemented
  | LDel i => ao_del o i
  | LPop i => ao_pop o i
  | LClear => AOk (ao_clear (S (ao_len o)) o)
  | LReverse => if Nat.leb 2 (ao_len o) then ANotImplemented else AOk o
  end.
Fixpoint ao_run (parsed : bool) (t : trivia) (o : aobj) (ops : list (lop nat)) : aobj :=
  match ops with
  | [] => o
  | op :: ops' => ao_run parsed t (match ao_step parsed t o op with AOk o' => o' | _ => o end) ops'
  end.
(** container.py:552-562 [_render_aot]: the tables of [body]. *)
Definition ao_tables (o : aobj) : list table := map (o_heap o) (o_body o).
Definition ao_text (key : str) (o : aobj) : str := flat_map (fun x => render_aot_table (fst x) (snd x) key) (ao_tables o).
