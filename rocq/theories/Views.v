(** Views: the view that [doc[k]] gives on a table defined in several places
    (container.py:788-866 [OutOfOrderTableProxy]), and writing through it.
    [doc] may also be a table: [c] is its container. *)
From Verif Require Import Base Utils Items Container PyVal PyItem Edit.

(** [_tables]: the parts, as positions in the body of the container; [_tables_map]: for a key the number of
    the part that defines it, last entry first; [_internal_container].
    Simplification: the parts are Table objects shared with the document; here they are positions in it.  The view is used while no part of
    the document other than its tables is edited.  Keys are plain strings; a key is never None. *)
Record pview := mkView { v_tables : list nat; v_map : list (str * nat); v_inner : container }.
Definition is_part (c : container) (i : nat) : bool := match nth_error (c_body c) i with Some (_, ITable _ _) => true | _ => false end.
Definition part_entries (c : container) (i : nat) : list (option skey * item) := match nth_error (c_body c) i with Some (_, ITable tc _) => c_body tc | _ => [] end.
(** [self._tables_map[k] = table_idx] for the keys of a part *)
Definition map_part (t : nat) (es : list (option skey * item)) (m : list (str * nat)) : list (str * nat) :=
  fold_left (fun m (kv : option skey * item) => match fst kv with Some k => (k_key k, t) :: m | None => m end) es m.
Fixpoint map_parts (c : container) (t : nat) (tabs : list nat) (m : list (str * nat)) : list (str * nat) :=
  match tabs with [] => m | i :: tabs => map_parts c (S t) tabs (map_part t (part_entries c i) m) end.
(** container.py:788-807 [__init__] *)
Definition open_view (c : container) (k : str) : res pview :=
  match map_get k (c_map c) with
  | None => Err (NonExistentKeyE k)
  | Some (One _) => Err UnmodelledE
  | Some (Many l) => let* ic := proxy (app_fuel c None INull) c l in
                     let tabs := filter (is_part c) l in Ok (mkView tabs (map_parts c 0 tabs []) ic)
  end.
Definition v_find (x : str) (v : pview) : option nat := option_map snd (find (fun e => str_eqb (fst e) x) (v_map v)).
(** container.py:822-830 [__setitem__]: the part that is written to. *)
Definition part_to_write (v : pview) (x : str) : res nat :=
  match v_find x v with
  | Some t => match nth_error (v_tables v) t with Some i => Ok i | None => Err IndexErrorE end
  | None => match v_tables v with i :: _ => Ok i | [] => Err UnmodelledE end
  end.
Definition with_part (c : container) (i : nat) (f : tmeta -> container -> res container) : res container :=
  match nth_error (c_body c) i with
  | Some (bk, ITable tc tm) => let* tc' := f tm tc in Ok (set_body (list_set i (bk, ITable tc' tm) (c_body c)) c)
  | _ => Err UnmodelledE
  end.
(** container.py:822-830: what [view[x] = val] does to the document ... *)
Definition view_set_doc (c : container) (v : pview) (x : str) (val : pyv) : res container :=
  let* i := part_to_write v x in
  with_part c i (fun tm tc => let* it := py_item PkTable val in table_set tm tc x it).
(** ... and, container.py:832-834, to the view itself; [_tables_map] is not changed. *)
Definition view_set_self (v : pview) (x : str) (val : pyv) : res pview :=
  let* it := py_item PkNone val in
  let* ic := set_item (v_inner v) x it in Ok (mkView (v_tables v) (v_map v) ic).
(** container.py:326-343 [_remove_at] *)
Definition remove_at (c : container) (i : nat) : res container :=
  match nth_error (c_body c) i with
  | Some (Some k, _) =>
      let 'Cont body m p tks d := c in
      match map_get (k_key k) m with
      | None => Err (NonExistentKeyE (k_key k))
      | Some (Many l) =>
          match filter (fun j => negb (Nat.eqb i j)) l with
          | [j] => Ok (Cont (list_set i (None, INull) body) (map_set (k_key k) (One j) m) p tks d)
          | l' => Ok (Cont (list_set i (None, INull) body) (map_set (k_key k) (Many l') m) p tks d)
          end
      | Some (One _) => Ok (Cont (list_set i (None, INull) body) (map_del (k_key k) m) p tks (dict_del (k_key k) d))
      end
  | _ => Err UnmodelledE
  end.
Definition part_empty (c : container) (i : nat) : bool :=
  match nth_error (c_body c) i with Some (_, ITable tc _) => Nat.eqb (List.length (c_dict tc)) 0 | _ => false end.
(** [self._tables.remove(table)], container.py:838: the first part equal to the emptied one. *)
Fixpoint drop_first (f : nat -> bool) (l : list nat) : list nat :=
  match l with [] => [] | i :: l => if f i then l else i :: drop_first f l end.
(** container.py:836-850 [__delitem__], [_remove_table]: the document and [_tables] afterwards *)
Definition view_del_doc (c : container) (v : pview) (x : str) : res (container * list nat) :=
  match v_find x v with
  | None => Err (NonExistentKeyE x)
  | Some t =>
      match nth_error (v_tables v) t with
      | None => Err IndexErrorE
      | Some i =>
          let* c' := with_part c i (fun _ tc => remove tc x) in
          if part_empty c' i && Nat.ltb 1 (List.length (v_tables v))
          then let* c2 := remove_at c' i in Ok (c2, drop_first (part_empty c') (v_tables v))
          else Ok (c', v_tables v)
      end
  end.
(** container.py:850-856: the rest of [__delitem__] *)
Definition view_del_self (v : pview) (tabs : list nat) (x : str) : res pview :=
  let* ic := remove (v_inner v) x in
  Ok (mkView tabs (filter (fun e => negb (str_eqb (fst e) x)) (v_map v)) ic).
(** Both, in order. *)
Definition view_set (c : container) (v : pview) (x : str) (val : pyv) : res (container * pview) :=
  let* c' := view_set_doc c v x val in let* v' := view_set_self v x val in Ok (c', v').
Definition view_del (c : container) (v : pview) (x : str) : res (container * pview) :=
  let* r := view_del_doc c v x in let* v' := view_del_self v (snd r) x in Ok (fst r, v').
(** container.py:816-820 [__contains__] (of MutableMapping, through [__getitem__]) *)
Definition view_has (v : pview) (x : str) : res bool := contains (app_fuel (v_inner v) None INull) (v_inner v) x.
(** container.py:813-817 [__getitem__], for a key that is no table in several parts itself *)
Definition view_get (v : pview) (x : str) : option item := get_item (v_inner v) x.
