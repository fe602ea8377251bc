(** Changes: specification for C43: what editing does to the dict a document stands
    for.  A dict is a list of pairs; the key that is set may stand anywhere in it. *)
From Verif Require Import Base PyVal ListSpec Edit.

(** [d[k] = v], [del d[k]], [d[k].insert(j, v)], [del d[k][j]]: [v'] is a value equal to [v];
    positions are Python's (ListSpec).  [d.add(k, v)] is for new keys; comments, line breaks and
    indentation change nothing. *)
Definition same_op (o o' : lop pyv) : Prop :=
  match o, o' with
  | LAppend x, LAppend y => pyeq x y
  | LExtend xs, LExtend ys => Forall2 pyeq xs ys
  | LInsert i x, LInsert j y | LSet i x, LSet j y => i = j /\ pyeq x y
  | LDel i, LDel j | LPop i, LPop j => i = j
  | LClear, LClear | LReverse, LReverse => True
  | _, _ => False
  end.
(** The same inside a value: in its dicts and its lists; [lstep] is what Python's lists do (ListSpec). *)
Inductive changed_inside : list pstep -> iop -> pyv -> pyv -> Prop :=
  | ci_new k v v' a b : ~ In k (map fst (a ++ b)) -> pyeq v v' -> changed_inside [] (ISet k v) (PDict (a ++ b)) (PDict (a ++ (k, v') :: b))
  | ci_old k v v' x a b : ~ In k (map fst (a ++ b)) -> pyeq v v' -> changed_inside [] (ISet k v) (PDict (a ++ (k, x) :: b)) (PDict (a ++ (k, v') :: b))
  | ci_del k x a b : ~ In k (map fst (a ++ b)) -> changed_inside [] (IDel k) (PDict (a ++ (k, x) :: b)) (PDict (a ++ b))
  | ci_add k v v' a b : ~ In k (map fst (a ++ b)) -> pyeq v v' -> changed_inside [] (IAdd k v) (PDict (a ++ b)) (PDict (a ++ (k, v') :: b))
  | ci_key k q o x x' a b : ~ In k (map fst (a ++ b)) -> changed_inside q o x x' -> changed_inside (Key k :: q) o (PDict (a ++ (k, x) :: b)) (PDict (a ++ (k, x') :: b))
  | ci_list o o' l l' : same_op o o' -> lstep l o' = Some l' -> changed_inside [] (IArr o) (PList l) (PList l')
  | ci_index q o x x' a b : changed_inside q o x x' -> changed_inside (Index (List.length a) :: q) o (PList (a ++ x :: b)) (PList (a ++ x' :: b)).
Inductive changed : eop -> list (str * pyv) -> list (str * pyv) -> Prop :=
  | ch_new k v v' a b : ~ In k (map fst (a ++ b)) -> pyeq v v' -> changed (ESet k v) (a ++ b) (a ++ (k, v') :: b)
  | ch_old k v v' x a b a' b' : ~ In k (map fst (a ++ b)) -> pyeq v v' -> a' ++ b' = a ++ b -> changed (ESet k v) (a ++ (k, x) :: b) (a' ++ (k, v') :: b')
  | ch_del k x a b : ~ In k (map fst (a ++ b)) -> changed (EDel k) (a ++ (k, x) :: b) (a ++ b)
  | ch_insert k j v v' l1 l2 a b : ~ In k (map fst (a ++ b)) -> pyeq v v' -> List.length l1 = py_insert_pos (List.length (l1 ++ l2)) j ->
      changed (EInsert k j v) (a ++ (k, PList (l1 ++ l2)) :: b) (a ++ (k, PList (l1 ++ v' :: l2)) :: b)
  | ch_drop k j x l1 l2 a b : ~ In k (map fst (a ++ b)) -> py_index (List.length (l1 ++ x :: l2)) j = Some (List.length l1) ->
      changed (EDrop k j) (a ++ (k, PList (l1 ++ x :: l2)) :: b) (a ++ (k, PList (l1 ++ l2)) :: b)
  | ch_add k v v' a b : ~ In k (map fst (a ++ b)) -> pyeq v v' -> changed (EAdd k v) (a ++ b) (a ++ (k, v') :: b)
  | ch_remark s d : changed (ERemark s) d d
  | ch_newline d : changed ENewline d d
  | ch_note k s d : In k (map fst d) -> changed (ENote k s) d d
  | ch_indent k n d : In k (map fst d) -> changed (EIndent k n) d d
  | ch_inside k q o x x' a b : ~ In k (map fst (a ++ b)) -> changed_inside q o x x' -> changed (EInside k q o) (a ++ (k, x) :: b) (a ++ (k, x') :: b).
(** The same in the dict that the indices [p] lead to; everything else stays. *)
Inductive edited : list pstep -> eop -> list (str * pyv) -> list (str * pyv) -> Prop :=
  | ed_here o d d' : changed o d d' -> edited [] o d d'
  | ed_key k p o a x x' b : ~ In k (map fst (a ++ b)) -> edited p o x x' -> edited (Key k :: p) o (a ++ (k, PDict x) :: b) (a ++ (k, PDict x') :: b)
  | ed_elem k p o a l1 x x' l2 b : ~ In k (map fst (a ++ b)) -> edited p o x x' ->
      edited (Key k :: Index (List.length l1) :: p) o (a ++ (k, PList (l1 ++ PDict x :: l2)) :: b) (a ++ (k, PList (l1 ++ PDict x' :: l2)) :: b).
Inductive history : list (list pstep * eop) -> list (str * pyv) -> list (str * pyv) -> Prop :=
  | hi_nil d : history [] d d
  | hi_cons p o es d d1 d2 : edited p o d d1 -> history es d1 d2 -> history ((p, o) :: es) d d2.
