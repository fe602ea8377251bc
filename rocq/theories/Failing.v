(** Failing: operations as sequences of changes, so that what they leave behind when they raise can be seen (model, C52).
    [Container.v] and [Arrays.v] give only the exception; here an operation gives its outcome and the object as it then is. *)
From Verif Require Import Base Utils Items Container Arrays Api ListSpec OMap.
Open Scope nat_scope.

(** An argument: a value, or an object that [item()] does not convert, raising [e] (items.py:95-202). *)
Inductive arg := Good (it : item) | Bad (e : exn).
(** The outcome, and what is left. *)
Definition ran (A S : Type) := (res A * S)%type.
(** Statements in sequence: the first exception ends them. *)
Definition cmd (S : Type) := S -> ran unit S.
Definition seq_ {S} (f g : cmd S) : cmd S := fun s => match f s with (Ok _, s') => g s' | r => r end.
Notation "f ;; g" := (seq_ f g) (at level 61, right associativity).
Definition skip {S} : cmd S := fun s => (Ok tt, s).
Definition raise {S} (e : exn) : cmd S := fun s => (Err e, s).
Definition given {S} (a : arg) (f : item -> cmd S) : cmd S := fun s => match a with Good it => f it s | Bad e => (Err e, s) end.
Definition look {S} (f : S -> cmd S) : cmd S := fun s => f s s.

(** * Containers *)
(** [self._map = ...], [self._body = ...] and so on. *)
Definition on_map (f : list (str * cidx) -> list (str * cidx)) : cmd container := fun c => let 'Cont b m p t d := c in (Ok tt, Cont b (f m) p t d).
Definition on_body (f : list (option skey * item) -> list (option skey * item)) : cmd container := fun c => let 'Cont b m p t d := c in (Ok tt, Cont (f b) m p t d).
Definition on_keys (f : list str -> list str) : cmd container := fun c => let 'Cont b m p t d := c in (Ok tt, Cont b m p (f t) d).
(** [dict.__setitem__(self, k, v)], [dict.__delitem__(self, k)] *)
Definition dict_add (k : str) : cmd container := fun c => let 'Cont b m p t d := c in (Ok tt, Cont b m p t (dict_set k d)).
Definition dict_drop (k : str) : cmd container := fun c =>
  let 'Cont b m p t d := c in if existsb (str_eqb k) d then (Ok tt, Cont b m p t (dict_del k d)) else (Err KeyErrorE, c).
(** [self._body[i] = x] *)
Definition body_put (i : nat) (x : option skey * item) : cmd container := fun c =>
  let 'Cont b m p t d := c in if Nat.ltb i (List.length b) then (Ok tt, Cont (list_set i x b) m p t d) else (Err IndexErrorE, c).
Fixpoint nulls (l : list nat) : cmd container := match l with [] => skip | i :: l => body_put i (None, INull) ;; nulls l end.
(** container.py:345-362 [remove] *)
Definition remove_x (k : str) : cmd container := look (fun c =>
  match map_get k (c_map c) with
  | None => raise (NonExistentKeyE k)
  | Some ci => on_map (map_del k) ;; nulls (match ci with One x => [x] | Many l => l end) ;; dict_drop k
  end).
(** container.py:303-324 [_raw_append] with a key *)
Definition raw_append_x (k : skey) (it : item) : cmd container := look (fun c =>
  let n := List.length (c_body c) in
  match map_get (k_key k) (c_map c) with
  | Some ci =>
      let l := match ci with One x => [x] | Many l => l end in
      match nth_error (c_body c) (last l 0) with
      | None => raise IndexErrorE
      | Some (_, cur) => if is_table cur then on_map (map_set (k_key k) (Many (l ++ [n]))) else raise (KeyAlreadyPresentE (k_key k))
      end
  | None => on_map (map_set (k_key k) (One n))
  end ;;
  on_body (fun b => b ++ [(Some k, it)]) ;; (if is_table it then on_keys (fun t => t ++ [k_key k]) else skip) ;; dict_add (k_key k)).
(** [previous_item.trivia.trail += "\n"] *)
Definition close_trail (i : nat) : cmd container := on_body (fun b => match nth_error b i with Some (pk, prev) => list_set i (pk, add_nl_trail prev) b | None => b end).
(** container.py:411-455 [_insert_at]; [it] is no table *)
Definition insert_at_x (idx : nat) (k : skey) (it : item) : cmd container := look (fun c =>
  let b := c_body c in
  if Nat.leb (List.length b) idx then raise ValueErrorE else
  match idx with
  | O => skip
  | S i => match nth_error b i with
           | Some (_, prev) => if is_wsitem prev || ends_with_whitespace prev || inb chLF (tr_trail (item_trivia prev)) then skip else close_trail i
           | None => raise IndexErrorE
           end
  end ;;
  on_map (map (fun kv => (fst kv, bump_idx idx (snd kv)))) ;;
  on_map (fun m => match map_get (k_key k) m with
                   | Some (One x) => map_set (k_key k) (Many [x; idx]) m
                   | Some (Many l) => map_set (k_key k) (Many (l ++ [idx])) m
                   | None => map_set (k_key k) (One idx) m
                   end) ;;
  on_body (list_insert idx (Some k, it)) ;; dict_add (k_key k)).
(** container.py:164-301 [append] of a value that is no table under a plain key.
    Simplification: the lookup [key in self] of a table defined in several places is Container.v's, and leaves things as they are (but see C33). *)
Definition append_x (k : str) (a : arg) : cmd container := given a (fun it => look (fun c =>
  match contains (app_fuel c (Some (KSingle (skey_of_str k))) it) c k with
  | Err e => raise e
  | Ok true => raise (KeyAlreadyPresentE k)
  | Ok false =>
      let b := c_body c in
      if Nat.ltb 0 (List.length b) && negb (c_parsed c) then
        let li := last_index_before_table b in
        if Nat.ltb li (List.length b) then insert_at_x li (skey_of_str k) it
        else let n := List.length b - 1 in
             match nth_error b n with
             | Some (_, prev) => if is_wsitem prev || ends_with_whitespace prev || inb chLF (tr_trail (item_trivia prev)) then skip else close_trail n
             | None => raise IndexErrorE
             end ;; raw_append_x (skey_of_str k) it
      else raw_append_x (skey_of_str k) it
  end)).
(** container.py:641-696 [_replace], [_replace_at]: a value in the place of a value.  A table in the place is Container.v's [replace_at]
    (then nothing is said of what is left when it raises). *)
Definition replace_x (k : str) (a : arg) : cmd container := look (fun c =>
  match map_get k (c_map c) with
  | None => raise (NonExistentKeyE k)
  | Some ci => given a (fun v =>
      let ix := match ci with One x => x | Many l => hd 0 l end in
      (match ci with One _ => skip | Many l => nulls (tl l) end) ;;
      match nth_error (c_body c) ix with
      | None => raise IndexErrorE
      | Some (None, _) => raise AttributeErrorE
      | Some (Some ok, old) =>
          if is_table_or_aot old then raise UnmodelledE else
          let nk := if str_eqb k (k_key ok) then ok else skey_of_str k in
          look (fun c => match map_get (k_key ok) (c_map c) with None => raise KeyErrorE | Some _ => on_map (map_del (k_key ok)) end) ;;
          on_map (map_set (k_key nk) (One ix)) ;;
          (if str_eqb (k_key nk) (k_key ok) then skip else dict_drop (k_key ok)) ;;
          body_put ix (Some nk, copy_trivia v old)
      end)
  end).
(** container.py:628-634 [__setitem__]: the conversion is in [append] or [_replace_at]. *)
Definition set_x (k : str) (a : arg) : cmd container := look (fun c =>
  match contains (app_fuel c (Some (KSingle (skey_of_str k))) (match a with Good it => it | Bad _ => INull end)) c k with
  | Err e => raise e
  | Ok true => replace_x k a
  | Ok false => append_x k a
  end).
(** [doc.append(k, v)], [doc[k] = v], [del doc[k]] *)
Definition cmd_of (o : cop arg) : cmd container := match o with CAdd k a => append_x k a | CSet k a => set_x k a | CDel k => remove_x k end.
(** container.py:118-134, 164-261 [append] under a dotted key: the tables are made first; then [self.append(name, table)], of whose errors
    that of [_validate_out_of_order_table] comes after the table is in, all others (Container.v) before anything of the document is changed. *)
Definition append_dotted_x (k : key) (a : arg) : cmd container := given a (fun it c =>
  match cappend false c (Some k) it with
  | Ok c' => (Ok tt, c')
  | Err e =>
      match k with
      | KDotted (name :: ((_ :: _) as rest)) sep _ =>
          if is_table_or_aot it then (Err e, c) else
          match append (app_fuel c (Some k) it) Own false c (Some (KSingle (set_dotted name))) (ITable (dotted_table rest sep it) (super_meta None)) false with
          | Ok c' => (Err e, c')
          | Err _ => (Err e, c)
          end
      | _ => (Err UnmodelledE, c)
      end
  end).

(** * Arrays *)
Definition on_list (f : list lobj -> list lobj) (a : arr) : arr := mkArr (f (a_list a)) (a_groups a) (a_map a).
(** items.py:1344-1392 [insert]: converted; into the list; then the position is looked up; then the rest. *)
Definition insert_x (pos : Z) (x : arg) : cmd arr := given x (fun it a =>
  match arr_insert a pos it with
  | Ok a' => (Ok tt, a')
  | Err e => (Err e, if is_deco it then a else on_list (list_insert (py_pos (List.length (a_list a)) pos) (LItem it)) a)
  end).
(** collections.abc: [append] is [insert(len(self), v)], [extend] appends one after the other. *)
Definition push_x (x : arg) : cmd arr := look (fun a => insert_x (Z.of_nat (List.length (a_list a))) x).
Fixpoint extend_x (xs : list arg) : cmd arr := match xs with [] => skip | x :: xs => push_x x ;; extend_x xs end.
Definition out_of_range (a : arr) (i : Z) : bool := ((i <? - Z.of_nat (List.length (a_list a))) || (Z.of_nat (List.length (a_list a)) <=? i))%Z.
Definition index_of (a : arr) (i : Z) : nat := Z.to_nat (if i <? 0 then Z.of_nat (List.length (a_list a)) + i else i)%Z.
(** items.py:1335-1342 [__setitem__]: the list first *)
Definition put_x (i : Z) (x : arg) : cmd arr := given x (fun it a =>
  match arr_set a i it with
  | Ok a' => (Ok tt, a')
  | Err e => (Err e, if out_of_range a i then a else on_list (list_set (index_of a i) (LItem it)) a)
  end).
(** items.py:1394-1426 [__delitem__]: the list first *)
Definition del_x (i : Z) : cmd arr := fun a =>
  match arr_del a i with
  | Ok a' => (Ok tt, a')
  | Err e => (Err e, if out_of_range a i then a else on_list (list_del (index_of a i)) a)
  end.
Definition pop_x (i : Z) : cmd arr := look (fun a => match arr_get a i with Ok _ => del_x i | Err e => raise e end).
(** [reverse]: swap by swap *)
Fixpoint swaps_x (k i n : nat) : cmd arr :=
  match k with
  | O => skip
  | S k => look (fun a => match arr_get a (Z.of_nat (n - i - 1)), arr_get a (Z.of_nat i) with
                          | Ok y, Ok x => put_x (Z.of_nat i) (Good y) ;; put_x (Z.of_nat (n - i - 1)) (Good x) ;; swaps_x k (S i) n
                          | Err e, _ | _, Err e => raise e
                          end)
  end.
Definition array_cmd (o : lop arg) : cmd arr :=
  match o with
  | LAppend x => push_x x
  | LExtend xs => extend_x xs
  | LInsert i x => insert_x i x
  | LSet i x => put_x i x
  | LDel i => del_x i
  | LPop i => pop_x i
  | LClear => fun a => (Ok tt, arr_clear a)
  | LReverse => look (fun a => swaps_x (Nat.div2 (List.length (a_list a))) 0 (List.length (a_list a)))
  end.
(** items.py:1335-1339: [a[i:j] = value] is done on the list, and then refused.  [it] is an array; a value that is not iterable
    is refused by [list.__setitem__]; strings and tables are not modelled. *)
Definition put_slice_x (i j : option Z) (x : arg) : cmd arr := given x (fun it a =>
  match it with
  | IArray gs _ _ =>
      let '(s, e) := slice_bounds (Z.of_nat (List.length (a_list a))) i j in
      let new := flat_map (fun g => match g_real g with Some v => [LItem v] | None => [] end) gs in
      (Err ValueErrorE, on_list (fun l => firstn (Z.to_nat s) l ++ new ++ skipn (Z.to_nat (Z.max s e)) l) a)
  | IVal _ _ => (Err TypeErrorE, a)
  | _ => (Err UnmodelledE, a)
  end).

(** A history: whatever an operation leaves is what the next one finds. *)
Fixpoint runs {O S} (f : O -> cmd S) (s : S) (os : list O) : S := match os with [] => s | o :: os => runs f (snd (f o s)) os end.
