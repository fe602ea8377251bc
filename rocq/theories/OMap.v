(** Specification: a Python dict (insertion-ordered) under additions that refuse
    duplicates, assignments and deletions.  Independent of the model of tomlkit. *)
From Coq Require Import List Bool NArith.
Import ListNotations.

(** Keys are texts: lists of code points. *)
Definition okey := list N.
Definition okey_eqb (a b : okey) : bool := if list_eq_dec N.eq_dec a b then true else false.

Section OMap.
Context {A : Type}.
Definition omap := list (okey * A).
Fixpoint oget (k : okey) (m : omap) : option A :=
  match m with [] => None | (k', v) :: m' => if okey_eqb k k' then Some v else oget k m' end.
(** [d[k] = v]: in place when present, at the end otherwise *)
Fixpoint oset (k : okey) (v : A) (m : omap) : omap :=
  match m with [] => [(k, v)] | (k', v') :: m' => if okey_eqb k k' then (k', v) :: m' else (k', v') :: oset k v m' end.
(** [del d[k]] *)
Definition odel (k : okey) (m : omap) : omap := filter (fun kv => negb (okey_eqb k (fst kv))) m.

Inductive cop := CAdd (k : okey) (v : A) | CSet (k : okey) (v : A) | CDel (k : okey).
Inductive outcome := ODone (m : omap) | ODuplicate (k : okey) | OMissing (k : okey).
Definition ostep (m : omap) (o : cop) : outcome :=
  match o with
  | CAdd k v => match oget k m with None => ODone (oset k v m) | Some _ => ODuplicate k end
  | CSet k v => ODone (oset k v m)
  | CDel k => match oget k m with None => OMissing k | Some _ => ODone (odel k m) end
  end.
(** A history: an operation that raises changes nothing. *)
Fixpoint orun (m : omap) (os : list cop) : omap :=
  match os with
  | [] => m
  | o :: os' => orun (match ostep m o with ODone m' => m' | _ => m end) os'
  end.
End OMap.
Arguments omap A : clear implicits.
Arguments cop A : clear implicits.
Arguments outcome A : clear implicits.
Definition cop_map {A B} (f : A -> B) (o : cop A) : cop B :=
  match o with CAdd k v => CAdd k (f v) | CSet k v => CSet k (f v) | CDel k => CDel k end.
