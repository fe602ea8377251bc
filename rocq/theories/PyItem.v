(** Model: [tomlkit.item] and [tomlkit.dumps] on Python values, [unwrap]. *)
From Verif Require Import Base Source Utils Items Container Arrays Parser Api PyVal.

(** The kind of [_parent] (items.py:132): None, a Table, an InlineTable, an Array. *)
Inductive pkind_of := PkNone | PkTable | PkInline | PkArray.
Definition pk_inline (k : pkind_of) : bool := match k with PkInline | PkArray => true | _ => false end.
Definition dict_parent (inl : bool) : pkind_of := if inl then PkInline else PkTable.

(** [val[k] = item] in turn on a new container (items.py:163-167, 182-190;
    1524-1547 with an empty indentation, 1767-1770 with no comment). *)
Fixpoint build (c : container) (its : list (str * item)) : res container :=
  match its with
  | [] => Ok c
  | (k, i) :: l => let* c' := set_item c k i in build c' l
  end.
(** items.py:1550-1569, 1651-1662 the constructors; [flag] is [is_aot_element] of a
    Table and [new] of an InlineTable. *)
Definition new_dict (inl flag : bool) (c : container) : item :=
  if inl then IInline c default_trivia flag else ITable c (mkTM default_trivia flag None None None).
(** items.py:186-188: [i.trivia.trail = ""] in an inline table. *)
Definition bare_trail (inl : bool) (i : item) : item :=
  if inl then set_trivia (with_trail [] (item_trivia i)) i else i.
(** items.py:182-185: sorting by [isinstance(v, dict)], stable. *)
Definition dicts_last {A} (l : list (bool * A)) : list A :=
  map snd (filter (fun x => negb (fst x)) l) ++ map snd (filter fst l).
(** items.py:171-180: an array of tables, or an array? *)
Definition wants_aot (pk : pkind_of) (l : list pyv) : bool :=
  match l with [] => false | _ => forallb is_dict l end && match pk with PkNone | PkTable => true | _ => false end.
Definition aot_of (l : list (container * tmeta)) : item := aot_make l None false.
Definition as_table (i : item) : list (container * tmeta) := match i with ITable c m => [(c, m)] | _ => [] end.

(** items.py:132-225 [item(value, _parent)], [_sort_keys=False]; children are made
    before they are stored, which nothing can observe. *)
Fixpoint py_item (pk : pkind_of) (v : pyv) {struct v} : res item :=
  match v with
  | PBool b => Ok (api_bool b)
  | PInt z => Ok (api_int z)
  | PFloat f => Ok (api_float f)
  | PStr s => api_string s false false
  | PDate d => Ok (api_date d)
  | PTime t => Ok (api_time t)
  | PDateTime d => Ok (api_datetime d)
  | PDict kvs =>
      let inl := pk_inline pk in
      let* its := (fix go (l : list (str * pyv)) : res (list (str * item)) :=
                     match l with
                     | [] => Ok []
                     | (k, x) :: l' => let* i := py_item (dict_parent inl) x in let* r := go l' in Ok ((k, i) :: r)
                     end) kvs in
      let* c := build (empty_cont false) its in
      Ok (new_dict inl false c)
  | PList l =>
      let aot := wants_aot pk l in
      let inl := negb aot in
      let* its := (fix go (l : list pyv) : res (list item) :=
                     match l with
                     | [] => Ok []
                     | x :: l' =>
                         let* i := match x with
                                   | PDict kvs =>
                                       let* its := (fix go2 (l : list (str * pyv)) : res (list (bool * (str * item))) :=
                                                      match l with
                                                      | [] => Ok []
                                                      | (k, y) :: l' =>
                                                          let* i := py_item (dict_parent inl) y in
                                                          let* r := go2 l' in Ok ((is_dict y, (k, bare_trail inl i)) :: r)
                                                      end) kvs in
                                       let* c := build (empty_cont false) (dicts_last its) in
                                       Ok (new_dict inl true c)
                                   | _ => py_item PkArray x
                                   end in
                         let* r := go l' in Ok (i :: r)
                     end) l in
      if aot then Ok (aot_of (flat_map as_table its))
      else let* a := arr_extend arr_empty its in Ok (IArray (a_groups a) default_trivia false)
  end.
(** api.py:49-65 [dumps] of a dict: [item(dict(data)).as_string()]. *)
Definition dumps (kvs : list (str * pyv)) : res str := let* i := py_item PkNone (PDict kvs) in Ok (item_string i).

(** How deep an item goes. *)
Fixpoint idepth (i : item) : nat :=
  match i with
  | IArray gs _ _ => S (fold_right (fun (g : agroup item) n => match g with mkGroup _ v _ _ => Nat.max (match v with Some x => idepth x | None => 0%nat end) n end) 0%nat gs)
  | IInline c _ _ | ITable c _ => S (cdepth c)
  | IAoT l _ _ _ => S (fold_right (fun (x : container * tmeta) n => match x with (c, _) => Nat.max (cdepth c) n end) 0%nat l)
  | _ => 0%nat
  end
with cdepth (c : container) : nat :=
  match c with Cont body _ _ _ _ => S (fold_right (fun (kv : option skey * item) n => match kv with (_, v) => Nat.max (idepth v) n end) 0%nat body) end.

(** [unwrap]: items.py:610, 700, 776, 861, 979, 1055, 1176-1183, 1444-1453, 1793,
    1852-1859; container.py:46-64, 809-810.  Dicts come in the order of the container's
    dict.  [None]: an item without a Python value, or an exception.  [fuel] bounds the
    recursion, by the depth of the item (it is enough: Unwrap.v). *)
Fixpoint unwrap_n (fuel : nat) (i : item) {struct fuel} : option pyv :=
  match fuel with
  | O => None
  | S n =>
      match i with
      | IVal (SStr _ v _) _ => Some (PStr v)
      | IVal (SInt z _) _ => Some (PInt z)
      | IVal (SFloat f _) _ => Some (PFloat f)
      | IVal (SBool b) _ => Some (PBool b)
      | IVal (SDate d _) _ => Some (PDate d)
      | IVal (STime t _) _ => Some (PTime t)
      | IVal (SDateTime d _) _ => Some (PDateTime d)
      | IArray gs _ _ =>
          option_map PList ((fix go (l : list (agroup item)) : option (list pyv) :=
            match l with
            | [] => Some []
            | mkGroup _ v _ _ :: l' =>
                match v with
                | None | Some (IWs _ _) | Some (IComment _) | Some INull => go l'
                | Some x => match unwrap_n n x, go l' with Some a, Some r => Some (a :: r) | _, _ => None end
                end
            end) gs)
      | IInline c _ _ | ITable c _ => option_map PDict (unwrap_cont_n n c)
      | IAoT l _ _ _ =>
          option_map PList ((fix go (l : list (container * tmeta)) : option (list pyv) :=
            match l with
            | [] => Some []
            | (c, _) :: l' => match unwrap_cont_n n c, go l' with Some a, Some r => Some (PDict a :: r) | _, _ => None end
            end) l)
      | _ => None
      end
  end
(** [self[k]] (container.py:457-472) is an item, or the view over the parts of an
    out-of-order table, unwrapped through its internal container. *)
with unwrap_cont_n (fuel : nat) (c : container) {struct fuel} : option (list (str * pyv)) :=
  match fuel with
  | O => None
  | S n =>
      (fix pick (ks : list str) : option (list (str * pyv)) :=
         match ks with
         | [] => Some []
         | k :: ks' =>
             match match map_get k (c_map c) with
                   | Some (One i) => match nth_error (c_body c) i with Some (_, v) => unwrap_n n v | None => None end
                   | Some (Many l) => match proxy (app_fuel c None INull) c l with Ok ic => option_map PDict (unwrap_cont_n n ic) | Err _ => None end
                   | None => None
                   end with
             | Some v => option_map (cons (k, v)) (pick ks')
             | None => None
             end
         end) (c_dict c)
  end.
Definition unwrap (i : item) : option pyv := unwrap_n (S (idepth i)) i.
Definition unwrap_cont (c : container) : option (list (str * pyv)) := unwrap_cont_n (S (cdepth c)) c.
