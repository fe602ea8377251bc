(** Specification: the Python values of C27/C28, and their equality.  Independent
    of the model of tomlkit but for the date and time records. *)
From Verif Require Import Base Utils.
From Coq Require Import Permutation.

(** Nested dicts and lists of strings, integers, booleans, floats, dates and times.
    A float stands for the exact decimal of its shortest [repr]. *)
Inductive pyv :=
  | PStr (s : str) | PInt (z : Z) | PBool (b : bool) | PFloat (f : fval)
  | PDate (d : date) | PTime (t : time) | PDateTime (d : datetime)
  | PList (l : list pyv)
  | PDict (l : list (str * pyv)).
(** Equality of floats: [m * 10^e]; a NaN is taken to equal a NaN. *)
Inductive feq : fval -> fval -> Prop :=
  | fe_refl f : feq f f
  | fe_zero n a b : feq (FDec n 0 a) (FDec n 0 b)
  | fe_nan a b : feq (FNan a) (FNan b)
  | fe_shift n m e k : feq (FDec n m (e + Z.of_N k)) (FDec n (m * 10 ^ k)%N e).
(** [a == b] for Python values: dicts compare without regard to order. *)
Inductive pyeq : pyv -> pyv -> Prop :=
  | pe_refl v : pyeq v v
  | pe_float f g : feq f g -> pyeq (PFloat f) (PFloat g)
  | pe_list l l' : Forall2 pyeq l l' -> pyeq (PList l) (PList l')
  | pe_dict l l1 l' : Permutation l l1 -> Forall2 (fun a b => fst a = fst b /\ pyeq (snd a) (snd b)) l1 l' -> pyeq (PDict l) (PDict l').
(** A Python dict has no key twice; all the way down. *)
Inductive py_ok : pyv -> Prop :=
  | po_list l : Forall py_ok l -> py_ok (PList l)
  | po_dict l : NoDup (map fst l) -> Forall (fun kv => py_ok (snd kv)) l -> py_ok (PDict l)
  | po_str s : py_ok (PStr s) | po_int z : py_ok (PInt z) | po_bool b : py_ok (PBool b) | po_float f : py_ok (PFloat f)
  | po_date d : py_ok (PDate d) | po_time t : py_ok (PTime t) | po_datetime d : py_ok (PDateTime d).
Definition is_dict (v : pyv) : bool := match v with PDict _ => true | _ => false end.

Section PyInd.
  Variable P : pyv -> Prop.
  Hypotheses (Hs : forall s, P (PStr s)) (Hi : forall z, P (PInt z)) (Hb : forall b, P (PBool b)) (Hf : forall f, P (PFloat f))
    (Hd : forall d, P (PDate d)) (Ht : forall t, P (PTime t)) (Hdt : forall d, P (PDateTime d))
    (Hl : forall l, Forall P l -> P (PList l)) (Hdict : forall l, Forall (fun kv => P (snd kv)) l -> P (PDict l)).
  Fixpoint pyv_rect2 (v : pyv) : P v :=
    match v with
    | PStr s => Hs s | PInt z => Hi z | PBool b => Hb b | PFloat f => Hf f | PDate d => Hd d | PTime t => Ht t | PDateTime d => Hdt d
    | PList l => Hl l ((fix go (l : list pyv) : Forall P l := match l with [] => Forall_nil _ | x :: l' => Forall_cons x (pyv_rect2 x) (go l') end) l)
    | PDict l => Hdict l ((fix go (l : list (str * pyv)) : Forall (fun kv => P (snd kv)) l :=
        match l with [] => Forall_nil _ | x :: l' => Forall_cons x (match x as x0 return P (snd x0) with (_, v) => pyv_rect2 v end) (go l') end) l)
    end.
End PyInd.
