(** FailSpec: specification for C52: the operations of a history that are not refused outright. *)
From Verif Require Import Base Utils Items Container ListSpec OMap ArrayLemmas ContOps Failing.
Open Scope nat_scope.

(** The operations whose arguments could be converted. *)
Definition effective (o : cop arg) : option (cop item) :=
  match o with
  | CAdd k (Good v) => Some (CAdd k v)
  | CSet k (Good v) => Some (CSet k v)
  | CDel k => Some (CDel k)
  | CAdd _ (Bad _) | CSet _ (Bad _) => None
  end.
Fixpoint accepted (os : list (cop arg)) : list (cop item) :=
  match os with [] => [] | o :: os => match effective o with Some o' => o' :: accepted os | None => accepted os end end.
(** As [allowed] (ContOps.v): values, and not over a table.  Failing conversions are allowed, other than for a table defined in several places. *)
Definition allowed_arg (m : omap (option item)) (o : cop arg) : Prop :=
  match effective o with Some o' => allowed m o' | None => match o with CSet k _ => oget k m <> Some None | _ => True end end.
Fixpoint allowed_args (m : omap (option item)) (os : list (cop arg)) : Prop :=
  match os with
  | [] => True
  | o :: os => allowed_arg m o /\ allowed_args (match effective o with Some o' => match ostep m (shown o') with ODone m' => m' | _ => m end | None => m end) os
  end.

Fixpoint goods (xs : list arg) : list item := match xs with Good it :: xs => it :: goods xs | _ => [] end.
Fixpoint first_bad (xs : list arg) : option exn := match xs with [] => None | Good _ :: xs => first_bad xs | Bad e :: _ => Some e end.
(** [extend] brings in what comes before the first object that cannot be converted. *)
Definition list_op (o : lop arg) : option (lop item) :=
  match o with
  | LAppend (Good x) => Some (LAppend x)
  | LExtend xs => Some (LExtend (goods xs))
  | LInsert i (Good x) => Some (LInsert i x)
  | LSet i (Good x) => Some (LSet i x)
  | LDel i => Some (LDel i)
  | LPop i => Some (LPop i)
  | LClear => Some LClear
  | LReverse => Some LReverse
  | _ => None
  end.
Fixpoint list_ops (os : list (lop arg)) : list (lop item) :=
  match os with [] => [] | o :: os => match list_op o with Some o' => o' :: list_ops os | None => list_ops os end end.
(** The values brought in are values. *)
Definition real_args (os : list (lop arg)) : Prop := Forall (fun o => match list_op o with Some o' => Forall real (lop_values o') | None => True end) os.
