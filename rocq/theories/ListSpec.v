(** Specification: what a plain Python list does under the operations of
    MutableSequence.  Independent of the model of tomlkit. *)
From Coq Require Import List ZArith Bool Lia.
Import ListNotations.
Open Scope nat_scope.

(** The position that index [i] names in a list of length [n], if any. *)
Definition py_index (n : nat) (i : Z) : option nat :=
  if ((i <? - Z.of_nat n) || (Z.of_nat n <=? i))%Z then None
  else Some (Z.to_nat (if (i <? 0)%Z then i + Z.of_nat n else i)%Z).
(** Where [insert(i, x)] puts [x]: negative counts from the end, then clamped. *)
Definition py_insert_pos (n : nat) (i : Z) : nat :=
  Z.to_nat (Z.min (Z.of_nat n) (Z.max 0 (if (i <? 0)%Z then i + Z.of_nat n else i)))%Z.

Inductive lop (A : Type) :=
  | LAppend (x : A) | LExtend (xs : list A) | LInsert (i : Z) (x : A) | LSet (i : Z) (x : A)
  | LDel (i : Z) | LPop (i : Z) | LClear | LReverse.
Arguments LAppend {A}. Arguments LExtend {A}. Arguments LInsert {A}. Arguments LSet {A}.
Arguments LDel {A}. Arguments LPop {A}. Arguments LClear {A}. Arguments LReverse {A}.

(** One operation on a list; [None] is IndexError. *)
Definition lstep {A} (l : list A) (o : lop A) : option (list A) :=
  let n := length l in
  match o with
  | LAppend x => Some (l ++ [x])
  | LExtend xs => Some (l ++ xs)
  | LInsert i x => let p := py_insert_pos n i in Some (firstn p l ++ x :: skipn p l)
  | LSet i x => option_map (fun p => firstn p l ++ x :: skipn (S p) l) (py_index n i)
  | LDel i | LPop i => option_map (fun p => firstn p l ++ skipn (S p) l) (py_index n i)
  | LClear => Some []
  | LReverse => Some (rev l)
  end.
(** A history; an operation that raises leaves the list as it was. *)
Fixpoint lrun {A} (l : list A) (os : list (lop A)) : list A :=
  match os with
  | [] => l
  | o :: os' => lrun (match lstep l o with Some l' => l' | None => l end) os'
  end.
(** The values an operation brings in *)
Definition lop_values {A} (o : lop A) : list A :=
  match o with
  | LAppend x | LInsert _ x | LSet _ x => [x]
  | LExtend xs => xs
  | _ => []
  end.
