(** Edit: assignments and deletions reached by indexing, as in
    [doc["a"]["b"]["x"] = 1] and [del doc["a"][0]["x"]].
    Simplification: the tables on the way are found by the index map; a key defined
    in several places (an OutOfOrderTableProxy) is not modelled.  Python stores the table objects by reference: the document tree has
    one reference to each of them, so editing the table is replacing it in the tree. *)
From Verif Require Import Base Utils Items Container Arrays ListSpec ArrayLemmas PyVal PyItem.

(** An index: a key, or (in an array of tables) a position. *)
Inductive pstep := Key (k : str) | Index (i : nat).
(** [t[k] = v], [del t[k]], [t.add(k, v)] ([append] is the same), [t.add(comment(s))], [t.add(nl())],
    [t[k].comment(s)], [t[k].indent(n)]; on an array of tables: [t[k].insert(j, v)] ([append] is
    insertion at the length, as collections.abc.MutableSequence has it) and [del t[k][j]].
    [EInside k q o]: the operation [o] in the inline table or on the array [t[k][q1]...[qn]];
    [IArr o]: the list operation [o]. *)
Inductive iop := ISet (k : str) (v : pyv) | IDel (k : str) | IAdd (k : str) (v : pyv) | IArr (o : lop pyv).
Inductive eop := ESet (k : str) (v : pyv) | EDel (k : str) | EInsert (k : str) (j : Z) (v : pyv) | EDrop (k : str) (j : Z)
  | EAdd (k : str) (v : pyv) | ERemark (s : str) | ENewline | ENote (k : str) (s : str) | EIndent (k : str) (n : nat)
  | EInside (k : str) (q : list pstep) (o : iop).

(** items.py:1524-1548 [AbstractTable.__setitem__] on a table: a new entry gets the
    indentation of the table. *)
Definition table_set (m : tmeta) (c : container) (k : str) (v : item) : res container :=
  let* present := contains (app_fuel c (Some (KSingle (skey_of_str k))) v) c k in
  let* c' := set_item c k v in
  if present then Ok c' else
  match first_spaces (tr_indent (tm_trivia m)) with
  | None => Ok c'
  | Some ind =>
      match map_get k (c_map c') with
      | Some (One i) =>
          match nth_error (c_body c') i with
          | Some (bk, it) => Ok (set_body (list_set i (bk, item_indent_insert ind it) (c_body c')) c')
          | None => Err IndexErrorE
          end
      | _ => Err UnmodelledE
      end
  end.
(** items.py:1585-1614 [Table.append] with a str key or None: the new entry gets the indentation of
    the table.  An item merged into one that is there leaves no entry of its own. *)
Definition table_add (m : tmeta) (c : container) (k : option str) (v : item) : res container :=
  let sk := option_map (fun k => KSingle (skey_of_str k)) k in
  let fuel := app_fuel c sk v in
  let* present := match k with Some k => contains fuel c k | None => Ok false end in
  let* c' := append fuel Own false c sk v true in
  match first_spaces (tr_indent (tm_trivia m)) with
  | None => Ok c'
  | Some ind =>
      match match k with Some k => map_get k (c_map c') | None => Some (One (List.length (c_body c') - 1)%nat) end with
      | Some (One i) =>
          if present then Ok c' else
          match nth_error (c_body c') i with
          | Some (bk, it) => Ok (set_body (list_set i (bk, item_indent_insert ind it) (c_body c')) c')
          | None => Err IndexErrorE
          end
      | _ => Err UnmodelledE
      end
  end.
(** container.py:96-122 [add], 161-301 [append]; or the same on a table. *)
Definition add_to (m : option tmeta) (c : container) (k : option str) (v : item) : res container :=
  match m with
  | None => let sk := option_map (fun k => KSingle (skey_of_str k)) k in append (app_fuel c sk v) Own false c sk v true
  | Some m => table_add m c k v
  end.
(** api.py:273-290 [nl], [comment]; items.py:131-138 [Trivia]. *)
Definition nl_item : item := IWs [chLF] true.
Definition comment_item (s : str) : item := IComment (mkTrivia [] (L "  ") (L "# " ++ s) [chLF]).
(** items.py:494-502 [Item.comment] *)
Definition note_trivia (s : str) (t : trivia) : trivia :=
  mkTrivia (tr_indent t) [chSP] (if startswith [chHASH] (strip s) then s else L "# " ++ s) (tr_trail t).
(** items.py:504-511 [Item.indent] *)
Definition indent_trivia (n : nat) (t : trivia) : trivia :=
  with_indent ((if startswith [chLF] (tr_indent t) then [chLF] else []) ++ repeat chSP n) t.
(** items.py:504-511, 1652-1670 [Table.indent] *)
Definition item_indent (n : nat) (i : item) : item :=
  match i with
  | ITable c m =>
      let t := indent_trivia n (tm_trivia m) in
      let ind := match first_spaces (tr_indent t) with Some s => s | None => [] end in
      ITable (set_body (map (fun kv => (fst kv, if is_wsitem (snd kv) then snd kv
                                                else set_trivia (with_indent (ind ++ tr_indent (item_trivia (snd kv))) (item_trivia (snd kv))) (snd kv))) (c_body c)) c)
             (set_tm_trivia t m)
  | _ => set_trivia (indent_trivia n (item_trivia i)) i
  end.
(** [t[k].method()]: container.py:614-626 [__getitem__] gives a Python bool for a Bool. *)
Definition on_item (c : container) (k : str) (f : item -> item) : res container :=
  match map_get k (c_map c) with
  | None => Err (NonExistentKeyE k)
  | Some (Many _) => Err UnmodelledE
  | Some (One i) =>
      match nth_error (c_body c) i with
      | Some (bk, IVal (SBool _) _) => Err AttributeErrorE
      | Some (bk, it) => Ok (set_body (list_set i (bk, f it) (c_body c)) c)
      | None => Err IndexErrorE
      end
  end.
(** [t[k] = f(t[k])] in place, for an array of tables [t[k]]; it is found as in [edit_at]. *)
Definition on_aot (c : container) (k : str) (f : list (container * tmeta) -> bool -> trivia -> res (list (container * tmeta))) : res container :=
  match map_get k (c_map c) with
  | None => Err (NonExistentKeyE k)
  | Some (Many _) => Err UnmodelledE
  | Some (One i) =>
      match nth_error (c_body c) i with
      | Some (bk, IAoT l n q t) => let* l' := f l q t in Ok (set_body (list_set i (bk, IAoT l' n q t) (c_body c)) c)
      | Some _ => Err UnmodelledE
      | None => Err IndexErrorE
      end
  end.
(** items.py:1703-1724 [InlineTable.append] with a str key: a space goes before an entry that is
    not the first; a comment is dropped. *)
Definition inline_add (c : container) (new : bool) (k : str) (v : item) : res container :=
  let t := item_trivia v in
  let ind := if match tr_indent t with [] => true | _ => false end && Nat.ltb 0 (List.length (c_dict c)) && negb new then [chSP] else tr_indent t in
  let v := set_trivia (mkTrivia ind (tr_cws t) [] (tr_trail t)) v in
  let sk := Some (KSingle (skey_of_str k)) in
  append (app_fuel c sk v) Own false c sk v true.
(** An operation on an inline table: items.py:1766-1769, 1524-1548 [__setitem__], 1488-1497 [remove],
    1703-1724 [append]. *)
Definition inline_op (c : container) (t : trivia) (new : bool) (o : iop) : res container :=
  match o with
  | ISet k v => let* it := py_item PkInline v in table_set (mkTM t false None None None) c k it
  | IDel k => remove c k
  | IAdd k v => let* it := py_item PkInline v in inline_add c new k it
  | IArr _ => Err UnmodelledE
  end.
(** ... on a table that dotted keys write in an inline table. *)
Definition dotted_op (m : tmeta) (c : container) (o : iop) : res container :=
  match o with
  | ISet k v => let* it := py_item PkTable v in table_set m c k it
  | IDel k => remove c k
  | IAdd k v => let* it := py_item PkTable v in table_add m c (Some k) it
  | IArr _ => Err UnmodelledE
  end.
(** The Array object with these groups: its list and its index map follow from them
    (C22 shows this of parsed arrays, and that the operations keep it). *)
Definition array_of (gs : list (agroup item)) : arr := mkArr (map LItem (reals gs)) gs (reindex 0 gs).
(** items.py:1336-1337, 1344-1345 [item(value, _parent=self)].  Simplification: [extend] makes all the items first. *)
Fixpoint array_items (l : list pyv) : res (list item) :=
  match l with [] => Ok [] | x :: l => let* i := py_item PkArray x in let* r := array_items l in Ok (i :: r) end.
Definition array_lop (o : lop pyv) : res (lop item) :=
  match o with
  | LAppend x => let* i := py_item PkArray x in Ok (LAppend i)
  | LExtend xs => let* l := array_items xs in Ok (LExtend l)
  | LInsert j x => let* i := py_item PkArray x in Ok (LInsert j i)
  | LSet j x => let* i := py_item PkArray x in Ok (LSet j i)
  | LDel j => Ok (LDel j)
  | LPop j => Ok (LPop j)
  | LClear => Ok LClear
  | LReverse => Ok LReverse
  end.
(** items.py:1320-1433: list operations on an array; on anything else they are not looked at. *)
Definition array_op (gs : list (agroup item)) (o : iop) : res (list (agroup item)) :=
  match o with
  | IArr o => let* o := array_lop o in let* a := arr_step (array_of gs) o in Ok (a_groups a)
  | ISet _ _ | IDel _ => Err TypeErrorE
  | IAdd _ _ => Err AttributeErrorE
  end.
(** api.py:201-211 [inline_table] *)
Definition inline_table : item := IInline (empty_cont false) default_trivia true.
(** [it[q1]...[qn]], then the operation.  An element of an array is in the list and in its group:
    changing it is storing the changed element. *)
Fixpoint inside_item (it : item) (q : list pstep) (o : iop) {struct q} : res item :=
  let step c (q : list pstep) (rec : item -> res item) :=
    match q with
    | Key k :: _ =>
        match map_get k (c_map c) with
        | None => Err (NonExistentKeyE k)
        | Some (Many _) => Err UnmodelledE
        | Some (One i) =>
            match nth_error (c_body c) i with
            | Some (bk, x) => let* x' := rec x in Ok (set_body (list_set i (bk, x') (c_body c)) c)
            | None => Err IndexErrorE
            end
        end
    | _ => Err TypeErrorE
    end in
  match it with
  | IInline c t new =>
      match q with
      | [] => let* c' := inline_op c t new o in Ok (IInline c' t new)
      | _ :: q' => let* c' := step c q (fun x => inside_item x q' o) in Ok (IInline c' t new)
      end
  | ITable c m =>
      match q with
      | [] => let* c' := dotted_op m c o in Ok (ITable c' m)
      | _ :: q' => let* c' := step c q (fun x => inside_item x q' o) in Ok (ITable c' m)
      end
  | IArray gs t ml =>
      match q with
      | [] => let* gs' := array_op gs o in Ok (IArray gs' t ml)
      | Index i :: q' =>
          let* x := arr_get (array_of gs) (Z.of_nat i) in
          let* x' := inside_item x q' o in
          let* a := arr_set (array_of gs) (Z.of_nat i) x' in Ok (IArray (a_groups a) t ml)
      | Key _ :: _ => Err TypeErrorE
      end
  | IVal _ _ => Err TypeErrorE
  | _ => Err UnmodelledE
  end.
Definition on_value (c : container) (k : str) (f : item -> res item) : res container :=
  match map_get k (c_map c) with
  | None => Err (NonExistentKeyE k)
  | Some (Many _) => Err UnmodelledE
  | Some (One i) =>
      match nth_error (c_body c) i with
      | Some (bk, it) => let* it' := f it in Ok (set_body (list_set i (bk, it') (c_body c)) c)
      | None => Err IndexErrorE
      end
  end.
(** The value at [it[q1]...[qn]], if inline tables and arrays lead to it. *)
Fixpoint inside_at (it : item) (q : list pstep) {struct q} : option item :=
  match q with
  | [] => Some it
  | Key k :: q' =>
      match it with
      | IInline c _ _ =>
          match map_get k (c_map c) with
          | Some (One i) => match nth_error (c_body c) i with Some (_, x) => inside_at x q' | None => None end
          | _ => None
          end
      | _ => None
      end
  | Index i :: q' =>
      match it with
      | IArray gs _ _ => match nth_error (reals gs) i with Some x => inside_at x q' | None => None end
      | _ => None
      end
  end.
(** The operation on a document (container.py:628-636) or on a table (items.py:1488-1497,
    1518-1548); on an array of tables, items.py:1892-1922 [insert] (the parent of the new
    item is an AoT: a dict becomes a table, a list an array, which is refused) and 1888-1890
    [__delitem__]. *)
Definition apply_op (m : option tmeta) (c : container) (o : eop) : res container :=
  match o with
  | ESet k v =>
      match m with
      | None => let* it := py_item PkNone v in set_item c k it
      | Some m => let* it := py_item PkTable v in table_set m c k it
      end
  | EDel k => remove c k
  | EInsert k j v =>
      on_aot c k (fun l q t => let* it := py_item PkNone v in
                               match it with ITable tc tm => Ok (aot_insert l q t j (tc, tm)) | _ => Err ValueErrorE end)
  | EDrop k j =>
      on_aot c k (fun l _ _ => match py_index (List.length l) j with Some p => Ok (firstn p l ++ skipn (S p) l) | None => Err IndexErrorE end)
  | EAdd k v => let* it := py_item (match m with None => PkNone | Some _ => PkTable end) v in add_to m c (Some k) it
  | ERemark s => add_to m c None (comment_item s)
  | ENewline => add_to m c None nl_item
  | ENote k s => on_item c k (fun it => set_trivia (note_trivia s (item_trivia it)) it)
  | EIndent k n => on_item c k (item_indent n)
  | EInside k q o => on_value c k (fun it => inside_item it q o)
  end.
(** container.py:614-626, items.py:1521-1522 [__getitem__] of documents and tables,
    items.py:1884-1885 of arrays of tables; then the operation. *)
Fixpoint edit_at (m : option tmeta) (c : container) (p : list pstep) (o : eop) {struct p} : res container :=
  match p with
  | [] => apply_op m c o
  | Index _ :: _ => Err TypeErrorE
  | Key k :: p' =>
      match map_get k (c_map c) with
      | None => Err (NonExistentKeyE k)
      | Some (Many _) => Err UnmodelledE
      | Some (One i) =>
          match nth_error (c_body c) i with
          | Some (bk, ITable tc tm) =>
              let* tc' := edit_at (Some tm) tc p' o in Ok (set_body (list_set i (bk, ITable tc' tm) (c_body c)) c)
          | Some (bk, IAoT l n q t) =>
              match p' with
              | Index j :: p'' =>
                  match nth_error l j with
                  | Some (tc, tm) => let* tc' := edit_at (Some tm) tc p'' o in Ok (set_body (list_set i (bk, IAoT (list_set j (tc', tm) l) n q t) (c_body c)) c)
                  | None => Err IndexErrorE
                  end
              | _ => Err TypeErrorE
              end
          | Some _ => Err UnmodelledE
          | None => Err IndexErrorE
          end
      end
  end.
(** The table that the indices [p] lead to; tables written by dotted keys on the way
    are not considered. *)
Fixpoint table_at (m : option tmeta) (c : container) (p : list pstep) {struct p} : option (option tmeta * container) :=
  match p with
  | [] => Some (m, c)
  | Index _ :: _ => None
  | Key k :: p' =>
      match map_get k (c_map c) with
      | Some (One i) =>
          match nth_error (c_body c) i with
          | Some (Some sk, ITable tc tm) => if k_dotted sk then None else table_at (Some tm) tc p'
          | Some (_, IAoT l _ _ _) =>
              match p' with
              | Index j :: p'' => match nth_error l j with Some (tc, tm) => table_at (Some tm) tc p'' | None => None end
              | _ => None
              end
          | _ => None
          end
      | _ => None
      end
  end.
(** A history of edits; it stops at the first one that raises. *)
Fixpoint edit_all (c : container) (es : list (list pstep * eop)) : res container :=
  match es with
  | [] => Ok c
  | (p, o) :: es => let* c' := edit_at None c p o in edit_all c' es
  end.
