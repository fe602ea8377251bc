(** FailAot: the operations on an array of tables as sequences of changes (model, C52): as Failing.v, for the object of AotObj.v.
    An operation gives its outcome and the object as it then is. *)
From Verif Require Import Base Source Utils Items Container Arrays ListSpec AotObj.
Open Scope nat_scope.

(** An argument: a Table (a dict is converted to one: its identity), something that [item()] converts to another kind of item, or an object that
    [item()] does not convert, raising [e] (items.py:95-202). *)
Inductive targ := TTable (x : nat) | TOther | TBad (e : exn).
Inductive why := WIndex | WNotImplemented | WItem (e : exn).
Inductive outc := Done | Raised (w : why).
Definition act := aobj -> outc * aobj.
(** Statements in sequence: the first exception ends them. *)
Definition then_ (f g : act) : act := fun o => match f o with (Done, o') => g o' | r => r end.
Notation "f ';>' g" := (then_ f g) (at level 61, right associativity).
Definition pass : act := fun o => (Done, o).
Definition throw (w : why) : act := fun o => (Raised w, o).
Definition view_ (f : aobj -> act) : act := fun o => f o o.
Definition set_heap (f : (nat -> table) -> nat -> table) : act := fun o => (Done, mkAobj (o_body o) (o_list o) (f (o_heap o))).
Definition set_body (f : list nat -> ares (list nat)) : act := fun o =>
  match f (o_body o) with AOk b => (Done, mkAobj b (o_list o) (o_heap o)) | AIndexError => (Raised WIndex, o) | ANotImplemented => (Raised WNotImplemented, o) end.
Definition set_list (f : list nat -> ares (list nat)) : act := fun o =>
  match f (o_list o) with AOk l => (Done, mkAobj (o_body o) l (o_heap o)) | AIndexError => (Raised WIndex, o) | ANotImplemented => (Raised WNotImplemented, o) end.

(** items.py:1892-1922 [insert]: conversion, the type check, the indentations, then the body and the list. *)
Definition insert_x (parsed : bool) (t : trivia) (i : Z) (a : targ) : act :=
  match a with
  | TBad e => throw (WItem e)
  | TOther => throw (WItem ValueErrorE)
  | TTable x => view_ (fun o =>
      let len := List.length (o_body o) in let n := aot_index len i in
      set_heap (fun h => upd h x (reindent t (h x))) ;>
      (if parsed then pass else
         (match (if Nat.ltb 0 n && Nat.ltb 0 len then nth_error (o_body o) (n - 1) else None) with
          | Some y => set_heap (fun h => if cont_nonempty (fst (h y)) && negb (has_nl_indent (h x)) then upd h x (nl_indent (h x)) else h)
          | None => pass
          end) ;>
         (match (if Nat.ltb (S n) len then nth_error (o_body o) (S n) else None) with
          | Some y => set_heap (fun h => if cont_nonempty (fst (h y)) && negb (has_nl_indent (h y)) then upd h y (nl_indent (h y)) else h)
          | None => pass
          end)) ;>
      set_body (fun b => AOk (list_insert n x b)) ;> set_list (fun l => AOk (list_insert (Nat.min n (List.length l)) x l)))
  end.
(** collections.abc.MutableSequence.append, extend *)
Definition append_x parsed t (a : targ) : act := view_ (fun o => insert_x parsed t (Z.of_nat (List.length (o_body o))) a).
Fixpoint extend_x parsed t (l : list targ) : act := match l with [] => pass | a :: l => append_x parsed t a ;> extend_x parsed t l end.
(** items.py:1888-1890 [__delitem__] *)
Definition del_x (i : Z) : act := set_body (fun b => py_del b i) ;> set_list (fun l => py_del l i).
(** MutableSequence.pop, clear *)
Definition pop_x (i : Z) : act := view_ (fun o => match ao_get o i with AOk _ => pass | AIndexError => throw WIndex | ANotImplemented => throw WNotImplemented end) ;> del_x i.
Fixpoint clear_x (fuel : nat) : act := fun o =>
  match fuel with
  | O => (Done, o)
  | S n => match pop_x (-1) o with (Done, o') => clear_x n o' | (Raised WIndex, o') => (Done, o') | r => r end
  end.
(** items.py:1885-1886 [__setitem__]; MutableSequence.reverse reads and assigns, once or more if there are two tables. *)
Definition act_of (parsed : bool) (t : trivia) (op : lop targ) : act :=
  match op with
  | LAppend a => append_x parsed t a
  | LExtend l => extend_x parsed t l
  | LInsert i a => insert_x parsed t i a
  | LSet _ _ => throw WNotImplemented
  | LDel i => del_x i
  | LPop i => pop_x i
  | LClear => view_ (fun o => clear_x (S (ao_len o)))
  | LReverse => view_ (fun o => if Nat.leb 2 (ao_len o) then throw WNotImplemented else pass)
  end.
(** A history, each operation going on with what the one before left behind. *)
Fixpoint acts (parsed : bool) (t : trivia) (o : aobj) (ops : list (lop targ)) : aobj :=
  match ops with [] => o | op :: ops => acts parsed t (snd (act_of parsed t op o)) ops end.
