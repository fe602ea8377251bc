(** Possible: specification for C43: which edits it speaks of. *)
From Verif Require Import Base Utils Items Container PyVal ContOps DumpValue DumpText ListSpec ArrayLemmas ArrayTidy Grammar Edit.

(** The edits of C43.  The indices [p] lead to the document, to a table or to an element of an
    array of tables (not to an inline table, nor to a table written by dotted keys, nor to one
    scattered over the document).  There, in [t], the edits are:
    - [t[k] = v] for a Python value [v] that is written as a value ([tablish v = false]: no dict, no
      list of dicts), where [k] is absent, or stands for a value, or for the first or the last
      of the tables of [t];
    - [t[k] = v] for a dict or a list of dicts, which becomes a table or an array of tables,
      where [k] is absent, or stands for a table, or (if [v] is a list) for an array of tables, or for
      a value below which no dotted key follows in [t];
    - [del t[k]] for a key that is there (for a table without a header of its own: if another key remains);
    - [t[k].insert(j, v)] for a dict [v], and [del t[k][j]] if another element remains, where [k] stands for
      an array of tables;
    - [t.add(k, v)] (or [append]) for such a value and an absent [k], [t.add(comment(s))], [t.add(nl())];
    - [t[k].comment(s)] and [t[k].indent(n)], where [k] stands for a value that is no boolean, a table or an array of tables.
    - in a value [x] that [t[k]], or [t[k][k1]...[kn]], is, where the indices are keys of inline tables and positions in arrays:
      if [x] is an inline table, [x[y] = v] for any Python value [v], where [y] is absent or stands for a value,
      [del x[y]] for a key that is there, [x.add(y, v)] for an absent key; if [x] is an array, a list operation that
      does not raise; other than assignment and [clear()] they are for tidy arrays (ArrayTidy: no comments, or every value
      on its own line; commas directly after the values).  No dotted keys lead to [x].
    Comments have no control characters, in particular no line breaks.
    The new dicts do not use again the name of the array of tables at the top of the
    document in which they are ([C27_refuted] shows why). *)
Definition absent (t : container) (k : str) : Prop := ~ In k (c_dict t).
Definition value_at (t : container) (k : str) : Prop := exists it, get_item t k = Some it /\ plain it.
Definition table_here (t : container) (k : str) : Prop := exists m x, table_at None t [Edit.Key k] = Some (Some m, x).
Definition array_here (t : container) (k : str) (n : nat) : Prop := exists l a b c, get_item t k = Some (IAoT l a b c) /\ List.length l = n.
Definition above_dotted (t : container) (k : str) : Prop := exists a sk it b sk' it', c_body t = a ++ (Some sk, it) :: b /\ k_key sk = k /\ In (Some sk', it') b /\ k_dotted sk' = true.
(** [k] is the first, the last of the tables (not counting those which dotted keys write). *)
Definition first_table (t : container) (k : str) : Prop := exists a sk it b, c_body t = a ++ (Some sk, it) :: b /\ k_key sk = k /\ forall s x, In (Some s, x) a -> is_table_or_aot x = true -> k_dotted s = true.
Definition last_table (t : container) (k : str) : Prop := exists a sk it b, c_body t = a ++ (Some sk, it) :: b /\ k_key sk = k /\ forall e, In e b -> is_table_or_aot (snd e) = false.
(** The names under which a value has dicts. *)
Fixpoint dict_names (v : pyv) : list str :=
  match v with
  | PDict kvs => flat_map (fun kv => match kv with (k, x) => (if is_dict x then [k] else []) ++ dict_names x end) kvs
  | PList l => flat_map dict_names l
  | _ => []
  end.
(** The array of tables at the top in which [v] is put at [k]. *)
Definition around (p : list pstep) (k : str) (v : pyv) : list str :=
  match p, v with Edit.Key a :: Index _ :: _, _ => [a] | [], PList _ => [k] | _, _ => [] end.
Definition fresh_names (p : list pstep) (k : str) (v : pyv) : Prop := forall a, In a (around p k v) -> (is_dict v = true -> k <> a) /\ ~ In a (dict_names v).
(** Text of a comment; a comment may begin with "#", but only blanks may be before it. *)
Definition one_line (s : str) : Prop := Forall (fun c => ~ control_c c) s.
Definition blank_start (s : str) : Prop := forall a r, s = a ++ 35%N :: r -> Forall (fun c => py_isspace c = true) a -> Forall blank_c a.
Definition has_methods (t : container) (k : str) : Prop :=
  (value_at t k /\ forall b tr, get_item t k <> Some (IVal (SBool b) tr)) \/ table_here t k \/ exists n, array_here t k n.
Definition in_range (n : nat) (o : lop pyv) : Prop :=
  match o with LSet i _ | LDel i | LPop i => py_index n i <> None | _ => True end.
Definition possible_inside (x : item) (o : iop) : Prop :=
  match x, o with
  | IInline i _ _, ISet y v => py_fine v /\ (absent i y \/ value_at i y)
  | IInline i _ _, IDel y => In y (c_dict i)
  | IInline i _ _, IAdd y v => py_fine v /\ absent i y
  | IArray gs _ _, IArr o =>
      Forall py_fine (lop_values o) /\ in_range (List.length (reals gs)) o /\ match o with LSet _ _ | LClear => True | _ => exists ln, tidy ln gs end
  | _, _ => False
  end.
Inductive possible_op (p : list pstep) (headless : bool) (t : container) : eop -> Prop :=
  | po_value k v : py_fine v -> tablish v = false ->
      absent t k \/ value_at t k \/ ((table_here t k \/ exists n, array_here t k n) /\ (first_table t k \/ last_table t k)) -> possible_op p headless t (ESet k v)
  | po_table k v : py_fine v -> tablish v = true -> fresh_names p k v ->
      absent t k \/ table_here t k \/ (is_dict v = false /\ exists n, array_here t k n) \/ (value_at t k /\ ~ above_dotted t k) -> possible_op p headless t (ESet k v)
  | po_del k : In k (c_dict t) -> (headless = true -> exists x, In x (c_dict t) /\ x <> k) -> possible_op p headless t (EDel k)
  | po_insert k j v n : py_fine v -> is_dict v = true -> fresh_names p k (PList [v]) -> array_here t k n -> possible_op p headless t (EInsert k j v)
  | po_drop k j n : array_here t k n -> py_index n j <> None -> n <> 1%nat -> possible_op p headless t (EDrop k j)
  | po_add k v : py_fine v -> absent t k -> (tablish v = true -> fresh_names p k v) -> possible_op p headless t (EAdd k v)
  | po_remark s : one_line s -> possible_op p headless t (ERemark s)
  | po_newline : possible_op p headless t ENewline
  | po_note k s : has_methods t k -> one_line s -> blank_start s -> possible_op p headless t (ENote k s)
  | po_indent k n : has_methods t k -> possible_op p headless t (EIndent k n)
  | po_inside k q o it i : get_item t k = Some it -> inside_at it q = Some i -> possible_inside i o -> possible_op p headless t (EInside k q o).
Definition headless (m : option tmeta) : bool := match m with Some m => match tm_super m with Some b => b | None => false end | None => false end.
(** Each edit is possible when its turn comes. *)
Fixpoint possible (c : container) (es : list (list pstep * eop)) : Prop :=
  match es with
  | [] => True
  | (p, o) :: es => (exists m t, table_at None c p = Some (m, t) /\ possible_op p (headless m) t o) /\ forall c', edit_at None c p o = Ok c' -> possible c' es
  end.
