(** Arrays: model of tomlkit/items.py [Array] (1098-1429): the Python list the
    user sees, the groups that are rendered, and the index map between them. *)
From Verif Require Import Base Utils Items Container.

(** Elements handed to [Array.__init__]: whitespace (a comma is a whitespace
    item too), comments, values. *)
Inductive aelem := EWs (s : str) | EComment (t : trivia) | EVal (i : item).

Definition empty_group : agroup item := mkGroup None None None None.
(** items.py:1121-1122 *)
Definition g_is_ws (g : agroup item) : bool :=
  match g_value g, g_comment g with None, None => true | _, _ => false end.
(** items.py:1124-1129: a group is true if it has any part *)
Definition g_bool (g : agroup item) : bool :=
  match g with mkGroup None None None None => false | _ => true end.

(** items.py:1150-1174 [_group_values]: [this_group] and the groups so far *)
Fixpoint group_loop (l : list aelem) (this : agroup item) : list (agroup item) :=
  match l with
  | [] => [this]
  | EWs s :: l' =>
      if inb chCOMMA s
      then group_loop l' (mkGroup (g_indent this)
                                  (Some (match g_value this with Some v => v | None => INull end))
                                  (Some s) (g_comment this))
      else this :: group_loop l' (mkGroup (Some s) None None None)
  | EComment t :: l' =>
      group_loop l' (mkGroup (g_indent this)
                             (Some (match g_value this with Some v => v | None => INull end))
                             (g_comma this) (Some t))
  | EVal i :: l' =>
      match g_value this with
      | None => group_loop l' (mkGroup (g_indent this) (Some i) (g_comma this) (g_comment this))
      | Some _ => this :: group_loop l' (mkGroup None (Some i) None None)
      end
  end.
Definition group_values (l : list aelem) : list (agroup item) := filter g_bool (group_loop l empty_group).

(** Does the group hold a real value (not None, not Null)? items.py:1239 *)
Definition g_real (g : agroup item) : option item :=
  match g_value g with Some v => if is_null v then None else Some v | None => None end.

(** items.py:1235-1242 [_reindex]: position in the list view -> group index.  The
    dict has the keys 0,1,2,... so it is a list. *)
Fixpoint reindex (i : nat) (gs : list (agroup item)) : list nat :=
  match gs with
  | [] => []
  | g :: gs' => match g_real g with Some _ => i :: reindex (S i) gs' | None => reindex (S i) gs' end
  end.

(** Entries of the base-class list: an Item, or ([LRaw]) the [.value] of an Item
    whose value is not itself an Item (a Bool's bool, an InlineTable's Container):
    items.py:1283,1299 put those there. *)
Inductive lobj := LItem (i : item) | LRaw (i : item).
(** items.py:1283: [it.value] as a list entry *)
Definition value_obj (i : item) : lobj :=
  match i with IVal (SBool _) _ | IInline _ _ _ => LRaw i | _ => LItem i end.

(** The state of an [Array] object: the base-class list, [_value], [_index_map]. *)
Record arr := mkArr { a_list : list lobj; a_groups : list (agroup item); a_map : list nat }.

(** items.py:1137-1148 *)
Definition elem_vals (l : list aelem) : list lobj :=
  flat_map (fun e => match e with
                     | EVal (IWs _ _) | EVal (IComment _) | EVal INull => []
                     | EVal i => [LItem i] | _ => [] end) l.
Definition arr_new (l : list aelem) : arr :=
  let g := group_values l in mkArr (elem_vals l) g (reindex 0 g).
Definition arr_empty : arr := mkArr [] [] [].

(** items.py:1113-1116: the text of one group *)
Definition gtext (g : agroup item) : str :=
  opt_str (g_indent g) ++ (match g_value g with Some x => item_string x | None => [] end)
  ++ opt_str (g_comma g) ++ (match g_comment g with Some c => comment_string c | None => [] end).
(** items.py:1216-1218: the one-line rendering *)
Definition arr_string (a : arr) : str := [chLBR] ++ flat_map gtext (a_groups a) ++ [chRBR].

Definition set_comma (c : option str) (g : agroup item) : agroup item :=
  mkGroup (g_indent g) (g_value g) c (g_comment g).
Definition set_gindent (c : option str) (g : agroup item) : agroup item :=
  mkGroup c (g_value g) (g_comma g) (g_comment g).
Definition set_gvalue (v : option item) (g : agroup item) : agroup item :=
  mkGroup (g_indent g) v (g_comma g) (g_comment g).

(** Is the item something [list.insert] is called for? items.py:1347 *)
Definition is_deco (i : item) : bool := match i with IWs _ _ | IComment _ => true | _ => false end.

(** A group's value is a [Null] instance. *)
Definition g_null (g : agroup item) : bool := match g_value g with Some v => is_null v | None => false end.

(** Python [list.insert] position *)
Definition py_pos (len : nat) (pos : Z) : nat :=
  let p := if (pos <? 0)%Z then (pos + Z.of_nat len)%Z else pos in
  if (p <? 0)%Z then 0%nat else if (Z.of_nat len <=? p)%Z then len else Z.to_nat p.

(** items.py:1344-1392 [insert] of an item; [value] is already an Item. *)
Definition arr_insert (a : arr) (pos0 : Z) (it : item) : res arr :=
  let 'mkArr l gs m := a in
  let length := List.length l in
  let l' := if is_deco it then l else list_insert (py_pos length pos0) (LItem it) l in
  let pos := (if (pos0 <? 0)%Z then (if (pos0 + Z.of_nat length <? 0)%Z then 0 else pos0 + Z.of_nat length) else pos0)%Z in
  let inside := (pos <? Z.of_nat length)%Z in
  let r :=                                                 (* idx, default_indent has "\n" *)
    if inside then match nth_error m (Z.to_nat pos) with
                   | Some i => Ok (i, false)
                   | None => Err IndexErrorE
                   end
    else
      let idx := List.length gs in
      match idx with
      | O => Ok (O, false)
      | S i => match nth_error gs i with
               | Some g => if g_is_ws g
                           then Ok (i, match g_indent g with Some s => inb chLF s | None => false end)
                           else Ok (idx, false)
               | None => Ok (idx, false)
               end
      end in
  let* (idx, dnl) := r in
  let default_indent := if dnl then chLF :: L "    " else L " " in
  let indent := match nth_error gs idx with
                | Some g => if g_is_ws g then None else g_indent g
                | None => None
                end in
  let comma := if inside then Some [chCOMMA] else None in
  let '(indent, comma, gs) :=
    match idx with
    | O => (indent, comma, gs)
    | S i =>
        match nth_error gs i with
        | None => (indent, comma, gs)
        | Some lst =>
            (match indent with None => g_indent lst | Some _ => indent end,
             if negb (g_null lst) && dnl then g_comma lst else comma,
             match g_comma lst with
             | None => if negb (g_null lst) then list_set i (set_comma (Some [chCOMMA]) lst) gs else gs
             | Some _ => gs
             end)
        end
    end in
  let indent := match indent with
                | None => if Nat.ltb 0 idx || dnl then Some default_indent else None
                | Some _ => indent
                end in
  let gs' := list_insert idx (mkGroup indent (Some it) comma None) gs in
  Ok (mkArr l' gs' (reindex 0 gs')).

(** MutableSequence.append / extend *)
Definition arr_append (a : arr) (it : item) : res arr := arr_insert a (Z.of_nat (List.length (a_list a))) it.
Fixpoint arr_extend (a : arr) (l : list item) : res arr :=
  match l with [] => Ok a | x :: l' => let* a' := arr_append a x in arr_extend a' l' end.

Definition list_del {A} (n : nat) (l : list A) : list A := firstn n l ++ skipn (S n) l.

(** items.py:1411-1419: delete one group *)
Definition del_group (idx : nat) (gs : list (agroup item)) : list (agroup item) :=
  let gs := list_del idx gs in
  match idx, gs with
  | O, g :: gs' => match g_indent g with
                   | Some s => if inb chLF s then gs else set_gindent None g :: gs'
                   | None => gs
                   end
  | _, _ => gs
  end.

(** items.py:1420-1424 *)
Definition drop_last_comma (gs : list (agroup item)) : list (agroup item) :=
  match List.length gs with
  | O => gs
  | S i => match nth_error gs i with
           | Some g => if g_is_ws g then gs else list_set i (set_comma None g) gs
           | None => gs
           end
  end.

(** items.py:1404-1419: the loop over the (descending) indices; [m] is the index
    map from before the deletion; [is_slice]: missing indices are skipped. *)
Fixpoint del_loop (idxs : list Z) (m : list nat) (is_slice : bool) (gs : list (agroup item)) : res (list (agroup item)) :=
  match idxs with
  | [] => Ok gs
  | i :: r => match (if (i <? 0)%Z then None else nth_error m (Z.to_nat i)) with
              | Some idx => del_loop r m is_slice (del_group idx gs)
              | None => if is_slice then del_loop r m is_slice gs else Err IndexErrorE
              end
  end.

(** items.py:1394-1426 [__delitem__] with an int *)
Definition arr_del (a : arr) (key : Z) : res arr :=
  let 'mkArr l gs m := a in
  let n := Z.of_nat (List.length l) in
  if ((key <? - n) || (n <=? key))%Z then Err IndexErrorE     (* list.__delitem__ *)
  else
    let i := (if key <? 0 then n + key else key)%Z in
    let* gs' := del_loop [i] m false gs in
    let gs'' := drop_last_comma gs' in
    Ok (mkArr (list_del (Z.to_nat i) l) gs'' (reindex 0 gs'')).

(** Python [slice.indices] for a step of 1: the bounds after clamping. *)
Definition slice_bounds (n : Z) (start stop : option Z) : Z * Z :=
  let clamp x := (if x <? 0 then Z.max 0 (x + n) else Z.min x n)%Z in
  (match start with None => 0%Z | Some x => clamp x end,
   match stop with None => n | Some x => clamp x end).
(** [list.__delitem__(self, slice(start, stop))] *)
Definition list_del_slice {A} (start stop : option Z) (l : list A) : list A :=
  let n := Z.of_nat (List.length l) in
  let '(a, b) := slice_bounds n start stop in
  if (a <? b)%Z then firstn (Z.to_nat a) l ++ skipn (Z.to_nat b) l else l.
(** [range(a, b)] in descending order *)
Definition range_desc (a b : Z) : list Z :=
  map (fun k => (b - 1 - Z.of_nat k)%Z) (seq 0 (Z.to_nat (b - a))).

(** items.py:1394-1426 [__delitem__] with slice(start, stop), step 1:
    [range(key.start or 0, key.stop or length)] — neither clamped nor made
    non-negative. *)
Definition arr_del_slice (a : arr) (start stop : option Z) : res arr :=
  let 'mkArr l gs m := a in
  let n := Z.of_nat (List.length l) in
  let s := match start with Some x => x | None => 0%Z end in
  let e := match stop with Some 0%Z => n | Some x => x | None => n end in
  let* gs' := del_loop (range_desc s e) m true gs in
  let gs'' := drop_last_comma gs' in
  Ok (mkArr (list_del_slice start stop l) gs'' (reindex 0 gs'')).

(** items.py:1335-1342 [__setitem__] with an int *)
Definition arr_set (a : arr) (key : Z) (it : item) : res arr :=
  let 'mkArr l gs m := a in
  let n := Z.of_nat (List.length l) in
  if ((key <? - n) || (n <=? key))%Z then Err IndexErrorE
  else
    let k := Z.to_nat (if key <? 0 then n + key else key)%Z in
    match nth_error m k with
    | Some g => match nth_error gs g with
                | Some grp => Ok (mkArr (list_set k (LItem it) l) (list_set g (set_gvalue (Some it) grp) gs) m)
                | None => Err IndexErrorE
                end
    | None => Err KeyErrorE
    end.

(** items.py:1320-1324 [clear] *)
Definition arr_clear (a : arr) : arr := mkArr [] [] [].

(** items.py:1329-1333 [__getitem__] with an int: a raw bool or Container has no
    [is_boolean].  (A Bool item is returned as its bool; that conversion is not
    modelled.) *)
Definition arr_get (a : arr) (key : Z) : res item :=
  let n := Z.of_nat (List.length (a_list a)) in
  if ((key <? - n) || (n <=? key))%Z then Err IndexErrorE
  else match nth_error (a_list a) (Z.to_nat (if key <? 0 then n + key else key)%Z) with
       | Some (LItem v) => Ok v
       | Some (LRaw _) => Err AttributeErrorE
       | None => Err IndexErrorE
       end.

(** MutableSequence.pop: [v = self[i]; del self[i]] *)
Definition arr_pop (a : arr) (key : Z) : res (item * arr) :=
  let* v := arr_get a key in let* a' := arr_del a key in Ok (v, a').

(** MutableSequence.reverse (collections.abc): swap from both ends with
    [self[i], self[n-i-1] = self[n-i-1], self[i]]. *)
Fixpoint arr_swaps (k : nat) (i : nat) (n : nat) (a : arr) : res arr :=
  match k with
  | O => Ok a
  | S k' =>
      let* y := arr_get a (Z.of_nat (n - i - 1)) in
      let* x := arr_get a (Z.of_nat i) in
      let* a1 := arr_set a (Z.of_nat i) y in
      let* a2 := arr_set a1 (Z.of_nat (n - i - 1)) x in
      arr_swaps k' (S i) n a2
  end.
Definition arr_reverse (a : arr) : res arr :=
  let n := List.length (a_list a) in arr_swaps (Nat.div2 n) 0 n a.

(** items.py:1244-1318 [add_line] with values only (no Whitespace argument).
    [items] are already items. *)
Fixpoint line_elems (items : list item) (add_comma : bool) : list aelem :=
  match items with
  | [] => []
  | [x] => EVal x :: (if add_comma then [EWs [chCOMMA]] else [])
  | x :: r => EVal x :: (if add_comma then [EWs [chCOMMA]; EWs [chSP]] else []) ++ line_elems r add_comma
  end.
(** items.py:1302-1311: give the last group with a real value a plain comma. *)
Fixpoint last_real (gs : list (agroup item)) (i : nat) (acc : option nat) : option nat :=
  match gs with
  | [] => acc
  | g :: gs' => last_real gs' (S i) (match g_real g with Some _ => Some i | None => acc end)
  end.
Definition comma_last_real (gs : list (agroup item)) : list (agroup item) :=
  match last_real gs 0 None with
  | Some i => match nth_error gs i with
              | Some g => list_set i (set_comma (Some [chCOMMA]) g) gs
              | None => gs
              end
  | None => gs
  end.
Definition arr_add_line (a : arr) (items : list item) (indent : str) (comment : option str)
           (add_comma newline : bool) : res arr :=
  let 'mkArr l gs m := a in
  if existsb (fun i => match i with IComment _ => true | _ => false end) items then Err ValueErrorE
  else
    let first_indent := if newline then chLF :: indent else indent in
    let new_values :=
      (match first_indent with [] => [] | _ => [EWs first_indent] end)
      ++ line_elems items add_comma
      ++ (match comment with
          | Some ((_ :: _) as c) =>
              [EComment (mkTrivia (match items with [] => [] | _ => L " " end) [] (L "# " ++ c) [])]
          | _ => []
          end) in
    let ng := group_values new_values in
    let gs1 := comma_last_real gs in
    let gs2 := match List.length gs1 with
               | O => ng
               | S i => match nth_error gs1 i with
                        | Some g => if g_is_ws g then firstn i gs1 ++ ng ++ skipn i gs1 else gs1 ++ ng
                        | None => gs1 ++ ng
                        end
               end in
    Ok (mkArr (l ++ map value_obj items) gs2 (reindex 0 gs2)).

(** [list.sort] and slice assignment act on the base-class list only: items.py
    defines no [sort]; 1335-1339 assigns the slice, then raises. *)
Definition arr_sort_with (sorted : list lobj -> list lobj) (a : arr) : arr :=
  mkArr (sorted (a_list a)) (a_groups a) (a_map a).
