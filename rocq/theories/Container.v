(** Container: model of the mutators of tomlkit/container.py, of [Table.append],
    [Table.raw_append] and [AoT.insert] (tomlkit/items.py).

    Python mutates shared objects; here every mutator returns the new tree.  The
    one place where tomlkit relies on sharing in a way a tree cannot express (an
    [OutOfOrderTableProxy] appending to an [AoT] that the document also holds)
    yields the explicit error [UnmodelledE].

    [strict]: when true, the branches of [append] that are known to lose, change
    or reorder text raise [LossyE]; the Python code is the model with
    [strict = false]. *)
From Verif Require Import Base Utils Items.

Fixpoint list_set {A} (n : nat) (x : A) (l : list A) : list A :=
  match n, l with
  | _, [] => []
  | O, _ :: l' => x :: l'
  | S n', y :: l' => y :: list_set n' x l'
  end.
Definition list_insert {A} (n : nat) (x : A) (l : list A) : list A :=
  firstn n l ++ x :: skipn n l.

Fixpoint fold_res {A B} (f : B -> A -> res B) (l : list A) (b : B) : res B :=
  match l with
  | [] => Ok b
  | x :: l' => match f b x with Ok b' => fold_res f l' b' | Err e => Err e end
  end.

(** Python dict assignment [_map[k] = v]: update in place or add at the end. *)
Fixpoint map_set (k : str) (v : cidx) (m : list (str * cidx)) : list (str * cidx) :=
  match m with
  | [] => [(k, v)]
  | (k', v') :: m' => if str_eqb k k' then (k', v) :: m' else (k', v') :: map_set k v m'
  end.
(** [_map.pop(k)] / [del _map[k]] *)
Fixpoint map_del (k : str) (m : list (str * cidx)) : list (str * cidx) :=
  match m with
  | [] => []
  | (k', v') :: m' => if str_eqb k k' then m' else (k', v') :: map_del k m'
  end.
(** [dict.__setitem__(self, k, ...)], key order only *)
Definition dict_set (k : str) (d : list str) : list str :=
  if existsb (str_eqb k) d then d else d ++ [k].
Definition dict_del (k : str) (d : list str) : list str :=
  filter (fun x => negb (str_eqb k x)) d.

Definition set_body (b : list (option skey * item)) (c : container) : container :=
  let 'Cont _ m p t d := c in Cont b m p t d.

(** container.py:768-786 [_previous_item_with_index()] with default arguments *)
Fixpoint last_nonnull (body : list (option skey * item)) (i : nat) (acc : option (nat * item)) : option (nat * item) :=
  match body with
  | [] => acc
  | (_, v) :: b => last_nonnull b (S i) (if is_null v then acc else Some (i, v))
  end.
Definition previous_item (body : list (option skey * item)) : option item :=
  option_map snd (last_nonnull body 0 None).

(** container.py:869-875 [ends_with_whitespace]: an AoT's last element is a
    Table, never a Whitespace. *)
Definition ends_with_whitespace (i : item) : bool :=
  match i with
  | ITable c _ => match previous_item (c_body c) with Some v => is_wsitem v | None => false end
  | _ => false
  end.

(** container.py:136-148 [_get_last_index_before_table] *)
Fixpoint last_index_loop (body : list (option skey * item)) (i : nat) (acc : nat) : nat :=
  match body with
  | [] => acc
  | (k, v) :: b =>
      if is_null v then last_index_loop b (S i) acc
      else if (match v with IWs _ f => negb f | _ => false end) then last_index_loop b (S i) acc
      else if is_table_or_aot v && negb (match k with Some k => k_dotted k | None => false end) then acc
      else last_index_loop b (S i) (S i)
  end.
Definition last_index_before_table (body : list (option skey * item)) : nat := last_index_loop body 0 0.

(** container.py:303-324 [_raw_append] *)
Definition raw_append (c : container) (k : option skey) (it : item) : res container :=
  let 'Cont body m p tks d := c in
  match k with
  | None => Ok (Cont (body ++ [(None, it)]) m p tks d)
  | Some k' =>
      let n := List.length body in
      let m' :=
        match map_get (k_key k') m with
        | Some i =>
            let l := match i with One x => [x] | Many l => l end in
            match nth_error body (last l 0%nat) with
            | Some (_, cur) => if is_table cur then Ok (map_set (k_key k') (Many (l ++ [n])) m)
                               else Err (KeyAlreadyPresentE (k_key k'))
            | None => Err IndexErrorE
            end
        | None => Ok (map_set (k_key k') (One n) m)
        end in
      let* m'' := m' in
      Ok (Cont (body ++ [(k, it)]) m'' p
               (if is_table it then tks ++ [k_key k'] else tks) (dict_set (k_key k') d))
  end.

(** Add "\n" to an item's trail. *)
Definition add_nl_trail (i : item) : item :=
  set_trivia (with_trail (tr_trail (item_trivia i) ++ [chLF]) (item_trivia i)) i.

Definition bump (idx : nat) (x : nat) : nat := if Nat.leb idx x then S x else x.
Definition bump_idx (idx : nat) (i : cidx) : cidx :=
  match i with One x => One (bump idx x) | Many l => Many (map (bump idx) l) end.

(** container.py:411-455 [_insert_at] *)
Definition insert_at (c : container) (idx : nat) (k : skey) (it : item) : res container :=
  let 'Cont body m p tks d := c in
  if Nat.ltb (List.length body - 1) idx || Nat.eqb (List.length body) 0 then Err ValueErrorE
  else
    let body :=
      match idx with
      | O => body
      | S i => match nth_error body i with
               | Some (pk, prev) =>
                   if is_wsitem prev || ends_with_whitespace prev || is_table_or_aot it
                      || inb chLF (tr_trail (item_trivia prev))
                   then body
                   else list_set i (pk, add_nl_trail prev) body
               | None => body
               end
      end in
    let m := map (fun kv => (fst kv, bump_idx idx (snd kv))) m in
    let m := match map_get (k_key k) m with
             | Some (One x) => map_set (k_key k) (Many [x; idx]) m
             | Some (Many l) => map_set (k_key k) (Many (l ++ [idx])) m
             | None => map_set (k_key k) (One idx) m
             end in
    Ok (Cont (list_insert idx (Some k, it) body) m p tks (dict_set (k_key k) d)).

(** items.py:1668-1674, 1924-1928 [invalidate_display_name]: children are
    reached through [self.values()], which yields proxies (skipped) for
    out-of-order keys. *)
Fixpoint inval_item (i : item) : item :=
  match i with
  | ITable c m => ITable (inval_cont c)
                         (mkTM (tm_trivia m) (tm_aot m) (tm_super m) (tm_name m) None)
  | IAoT l n p t =>
      IAoT (map (fun x => match x with (c, m) => (inval_cont c,
                   mkTM (tm_trivia m) (tm_aot m) (tm_super m) (tm_name m) None) end) l) n p t
  | _ => i
  end
with inval_cont (c : container) : container :=
  match c with
  | Cont body m p tks d =>
      Cont (map (fun kv : option skey * item =>
              match kv with
              | (k, v) =>
                  match k with
                  | Some k' => match map_get (k_key k') m with
                               | Some (One _) => (k, inval_item v)
                               | _ => (k, v)
                               end
                  | None => (k, v)
                  end
              end) body) m p tks d
  end.

(** [re.match("(?s)^[^ ]*([ ]+).*$", indent)]: the first run of spaces. *)
Definition first_spaces (s : str) : option str :=
  match take_while (fun c => c =? chSP) (drop_while (fun c => negb (c =? chSP)) s) with
  | [] => None
  | r => Some r
  end.
(** items.py:1608-1612 etc.: put [ind] before the first space of [s]. *)
Definition indent_insert (ind s : str) : str :=
  take_while (fun c => negb (c =? chSP)) s ++ ind ++ drop_while (fun c => negb (c =? chSP)) s.
Definition item_indent_insert (ind : str) (i : item) : item :=
  if is_wsitem i then i
  else set_trivia (with_indent (indent_insert ind (tr_indent (item_trivia i))) (item_trivia i)) i.

(** items.py:1894-1922 [AoT.insert] *)
Definition cont_nonempty (c : container) : bool := Nat.ltb 0 (List.length (c_dict c)).
Definition nl_indent (x : container * tmeta) : container * tmeta :=
  let '(c, m) := x in
  let t := tm_trivia m in
  (c, set_tm_trivia (with_indent (chLF :: tr_indent t) t) m).
Definition has_nl_indent (x : container * tmeta) : bool := inb chLF (tr_indent (tm_trivia (snd x))).
Definition aot_index (len : nat) (index : Z) : nat :=
  let i := if (index <? 0)%Z then (index + Z.of_nat len)%Z else index in
  if (i <? 0)%Z then 0%nat else if (Z.of_nat len <=? i)%Z then len else Z.to_nat i.
Definition aot_insert (l : list (container * tmeta)) (parsed : bool) (t : trivia) (index : Z)
           (x : container * tmeta) : list (container * tmeta) :=
  let len := List.length l in
  let i := aot_index len index in
  let x := match first_spaces (tr_indent t) with
           | Some ind => let '(c, m) := x in
               (c, set_tm_trivia (with_indent (indent_insert ind (tr_indent (tm_trivia m))) (tm_trivia m)) m)
           | None => x
           end in
  if parsed then list_insert i x l
  else
    let x := if Nat.ltb 0 i && match nth_error l (i - 1) with Some (c, _) => cont_nonempty c | None => false end
                && negb (has_nl_indent x) then nl_indent x else x in
    let l := if Nat.ltb (S i) len
             then match nth_error l (S i) with
                  | Some y => if cont_nonempty (fst y) && negb (has_nl_indent y)
                              then list_set (S i) (nl_indent y) l else l
                  | None => l
                  end
             else l in
    list_insert i x l.
Definition aot_append l parsed t x := aot_insert l parsed t (Z.of_nat (List.length l)) x.
(** items.py:1840-1850 [AoT.__init__] *)
Definition aot_trivia : trivia := mkTrivia [] [] [] [].
Definition aot_make (tables : list (container * tmeta)) (name : option str) (parsed : bool) : item :=
  IAoT (fold_left (fun l x => aot_append l parsed aot_trivia x) tables []) name parsed aot_trivia.

(** container.py:118-134 [_handle_dotted_key]: the nested super tables below the
    first part.  Python creates them outside in; the result is the same. *)
Definition super_meta (name : option str) : tmeta := mkTM default_trivia false (Some true) name None.
Definition singleton (k : skey) (it : item) : container :=
  Cont [(Some k, it)] [(k_key k, One 0%nat)] true (if is_table it then [k_key k] else []) [k_key k].
Fixpoint dotted_table (parts : list skey) (sep : str) (it : item) : container :=
  match parts with
  | [] => empty_cont true
  | [lst] => singleton (set_sep sep lst) it
  | mid :: rest => singleton (set_dotted mid) (ITable (dotted_table rest sep it) (super_meta (Some (k_key mid))))
  end.

(** container.py:174-175: give a nameless table its key as name *)
Definition set_name (k : str) (it : item) : item :=
  match it with
  | ITable c m => match tm_name m with
                  | None => ITable c (mkTM (tm_trivia m) (tm_aot m) (tm_super m) (Some k) (tm_disp m))
                  | Some _ => it
                  end
  | IAoT l None p t => IAoT l (Some k) p t
  | _ => it
  end.

(** container.py:177-192: cosmetic changes to a table about to be appended. *)
Definition pre_append (c : container) (k : option skey) (it : item) : item :=
  let 'Cont body _ p _ _ := c in
  let prev_ws := match previous_item body with
                 | Some i => is_wsitem i || ends_with_whitespace i
                 | None => false
                 end in
  let nonempty := Nat.ltb 0 (List.length body) in
  match it with
  | ITable _ _ =>
      let it := if p then it else inval_item it in
      if nonempty && negb (p || negb (str_eqb (tr_indent (item_trivia it)) []) || prev_ws)
         && negb (match k with Some k => k_dotted k | None => false end)
      then set_trivia (with_indent [chLF] (item_trivia it)) it else it
  | IAoT _ _ _ _ =>
      if nonempty && negb p then
        match inval_item it with
        | IAoT (x :: l) n q t =>
            if negb (has_nl_indent x || prev_ws) then IAoT (nl_indent x :: l) n q t
            else IAoT (x :: l) n q t
        | it => it
        end
      else it
  | _ => it
  end.

(** container.py:276-301: the end of [append] — insert before the tables or at
    the end. *)
Definition append_end (c : container) (k : option skey) (it : item) : res container :=
  let 'Cont body m p tks d := c in
  match k with
  | Some k' =>
      if Nat.ltb 0 (List.length body) && negb p && (negb (is_table_or_aot it) || k_dotted k')
      then
        let li := last_index_before_table body in
        if Nat.ltb li (List.length body) then insert_at c li k' it
        else
          let n := (List.length body - 1)%nat in
          match nth_error body n with
          | Some (pk, prev) =>
              if is_wsitem prev || ends_with_whitespace prev || inb chLF (tr_trail (item_trivia prev))
              then raw_append c k it
              else raw_append (Cont (list_set n (pk, add_nl_trail prev) body) m p tks d) k it
          | None => raw_append c k it
          end
      else raw_append c k it
  | None => raw_append c k it
  end.

(** container.py:345-362 [remove] *)
Definition remove (c : container) (k : str) : res container :=
  let 'Cont body m p tks d := c in
  match map_get k m with
  | None => Err (NonExistentKeyE k)
  | Some i =>
      let l := match i with One x => [x] | Many l => l end in
      Ok (Cont (fold_left (fun b x => list_set x (None, INull) b) l body)
               (map_del k m) p tks (dict_del k d))
  end.

(** New key argument of [_replace_at]: a plain string or a Key object. *)
Inductive newkey := NKStr (s : str) | NKKey (k : skey).
Definition nk_key (k : newkey) : str := match k with NKStr s => s | NKKey k => k_key k end.

(** container.py:690-695: trivia of the replacing value. *)
Definition or_str (a b : str) : str := match a with [] => b | _ => a end.
Definition copy_trivia (v old : item) : item :=
  match v with
  | IWs _ _ | IAoT _ _ _ _ => v
  | _ => let t := item_trivia v in let o := item_trivia old in
         set_trivia (mkTrivia (tr_indent o) (or_str (tr_cws t) (tr_cws o))
                              (or_str (tr_comment t) (tr_comment o)) (tr_trail o)) v
  end.

(** container.py:701-716: whether a replacing table gets a blank line appended *)
Definition table_push_ws (c : container) (m : tmeta) : item :=
  let 'Cont body cm p tks d := c in ITable (Cont (body ++ [(None, IWs [chLF] false)]) cm p tks d) m.

(** [is_aot_element], [is_super_table] of an item known to be a table *)
Definition item_is_super (i : item) : bool := match i with ITable c m => table_is_super c m | _ => false end.
Definition item_is_aot_elem (i : item) : bool := match i with ITable _ m => tm_aot m | _ => false end.

Definition kstr (k : option key) : option skey :=
  match k with Some (KSingle k) => Some k | _ => None end.

(** Is the [i]-th body entry the last one? (used by [strict] only) *)
Definition is_last (i : nat) (body : list (option skey * item)) : bool := Nat.eqb (S i) (List.length body).

(** The mutually recursive core; [fuel] bounds the recursion depth (nesting of
    tables). [prox]: [Shared] for the internal container of an
    OutOfOrderTableProxy, whose items are shared with the document; [Copied] for a
    deep copy made while filling one (container.py:251), into which shared items
    are appended. *)
Inductive share := Own | Copied | Shared.
Definition is_shared (x : share) : bool := match x with Shared => true | _ => false end.
Definition is_own (x : share) : bool := match x with Own => true | _ => false end.
Fixpoint append (fuel : nat) (prox : share) (strict : bool) (c : container) (k : option key) (it : item)
         (validate : bool) {struct fuel} : res container :=
  match fuel with
  | O => Err FuelE
  | S n =>
      match k with
      | Some (KDotted (name :: ((_ :: _) as rest)) sep _) =>
          (* container.py:118-134, 170-172 *)
          if is_table_or_aot it then Err TOMLKitErrorE
          else append n prox strict c (Some (KSingle (set_dotted name)))
                      (ITable (dotted_table rest sep it) (super_meta None)) true
      | _ =>
          let k := kstr k in
          let it := match k with Some k' => set_name (k_key k') it | None => it end in
          let it := pre_append c k it in
          match k with
          | None => append_end c None it
          | Some k' =>
              let* present := contains n c (k_key k') in
              if negb present then append_end c k it
              else
                let 'Cont body m p tks d := c in
                (* container.py:195-201 *)
                match map_get (k_key k') m with
                | None => Err KeyErrorE
                | Some ci =>
                    let pos := match ci with One x => x | Many l => last l 0%nat end in
                    match nth_error body pos with
                    | None => Err IndexErrorE
                    | Some (ck, cur) =>
                        let cur_dotted := match ck with Some x => k_dotted x | None => false end in
                        match it with
                        | ITable ic im =>
                            if negb (is_table_or_aot cur) then Err (KeyAlreadyPresentE (k_key k'))
                            else if tm_aot im then
                              (* container.py:207-217 *)
                              if is_shared prox then Err UnmodelledE
                              else if strict then Err (LossyE 9)
                              else
                              match cur with
                              | IAoT l nm ap t =>
                                  Ok (Cont (list_set pos (ck, IAoT (aot_append l ap t (ic, im)) nm ap t) body) m p tks d)
                              | ITable cc cmeta =>
                                  replace_at n strict c (Some ci) (NKKey k')
                                             (aot_make [(cc, cmeta); (ic, im)] None p)
                              | _ => Err (KeyAlreadyPresentE (k_key k'))
                              end
                            else if is_aot cur then Err (KeyAlreadyPresentE (k_key k'))
                            else if item_is_super cur then
                              if table_is_super ic im then
                                (* container.py:227-259: merge two super tables *)
                                let mk := k_dotted k' || cur_dotted in
                                let differs := match tks with
                                               | [] => Err IndexErrorE
                                               | _ => Ok (negb (str_eqb (last tks []) (match ck with Some x => k_key x | None => [] end)))
                                               end in
                                let* cond := (if mk then Ok true else differs) in
                                if cond then
                                  let ix := if k_dotted k' && negb p then last_index_before_table body
                                            else List.length body in
                                  let* c' := (if Nat.ltb ix (List.length body) then insert_at c ix k' it
                                              else raw_append c k it) in
                                  if validate then
                                    let* _ := validate_key n c' (k_key k') in Ok c'
                                  else Ok c'
                                else
                                  if strict && negb (is_last pos body) then Err (LossyE 7)
                                  else if strict && negb (str_eqb (match ck with Some x => k_orig x | None => [] end) (k_orig k')) then Err (LossyE 5)
                                  else
                                  match cur with
                                  | ITable cc cmeta =>
                                      let* r := fold_res (fun acc (kv : option skey * item) =>
                                                  table_append n (if is_own prox then Own else Copied) strict (fst acc) (snd acc)
                                                               (option_map KSingle (fst kv)) (snd kv))
                                                  (c_body ic) (cc, cmeta) in
                                      Ok (Cont (list_set pos (ck, ITable (fst r) (snd r)) body) m p tks d)
                                  | _ => Err TypeErrorE
                                  end
                              else if cur_dotted then Err TOMLKitErrorE
                              else append_end c k it
                            else if negb (table_is_super ic im) then Err (KeyAlreadyPresentE (k_key k'))
                            else append_end c k it
                        | IAoT il _ _ _ =>
                            match cur with
                            | IAoT l nm ap t =>
                                (* container.py:269-272 *)
                                if is_shared prox then Err UnmodelledE
                                else if strict && negb (is_last pos body) then Err (LossyE 6)
                                else if strict && negb (str_eqb (match ck with Some x => k_orig x | None => [] end) (k_orig k')) then Err (LossyE 5)
                                else Ok (Cont (list_set pos (ck, IAoT (fold_left (fun l x => aot_append l ap t x) il l) nm ap t) body) m p tks d)
                            | _ => Err (KeyAlreadyPresentE (k_key k'))
                            end
                        | _ => Err (KeyAlreadyPresentE (k_key k'))
                        end
                    end
                end
          end
      end
  end
(** [key in self]: Mapping.__contains__ calls [self[key]] (container.py:457-472,
    621-626), which builds a proxy for an out-of-order table; only KeyError is
    turned into False. *)
with contains (fuel : nat) (c : container) (k : str) {struct fuel} : res bool :=
  match fuel with
  | O => Err FuelE
  | S n =>
      match map_get k (c_map c) with
      | None => Ok false
      | Some (One _) => Ok true
      | Some (Many l) => match proxy n c l with
                         | Ok _ => Ok true
                         | Err (NonExistentKeyE _) => Ok false
                         | Err e => Err e
                         end
      end
  end
(** container.py:788-807 [OutOfOrderTableProxy.__init__]: the internal container. *)
with proxy (fuel : nat) (c : container) (idxs : list nat) {struct fuel} : res container :=
  match fuel with
  | O => Err FuelE
  | S n =>
      let* ic :=
        fold_res (fun ic i =>
          match nth_error (c_body c) i with
          | Some (_, ITable tc _) =>
              fold_res (fun ic (kv : option skey * item) =>
                          append n Shared false ic (option_map KSingle (fst kv)) (snd kv) false)
                       (c_body tc) ic
          | Some _ => Ok ic
          | None => Err IndexErrorE
          end) idxs (empty_cont true) in
      let* _ := fold_res (fun (_ : unit) kv => validate_key n ic (fst kv)) (c_map ic) tt in
      Ok ic
  end
(** container.py:150-158 [_validate_out_of_order_table(key)] *)
with validate_key (fuel : nat) (c : container) (k : str) {struct fuel} : res unit :=
  match fuel with
  | O => Err FuelE
  | S n => match map_get k (c_map c) with
           | Some (Many l) => let* _ := proxy n c l in Ok tt
           | _ => Ok tt
           end
  end
(** items.py:1585-1614 [Table.append], for a Key object or None *)
with table_append (fuel : nat) (prox : share) (strict : bool) (c : container) (tm : tmeta) (k : option key) (it : item)
     {struct fuel} : res (container * tmeta) :=
  match fuel with
  | O => Err FuelE
  | S n =>
      let* c' := append n prox strict c k it true in
      match option_map (fun k => match key_parts k with x :: _ => k_key x | [] => [] end) k with
      | None =>
          match first_spaces (tr_indent (tm_trivia tm)) with
          | None => Ok (c', tm)
          | Some ind =>
              if negb (is_own prox) then Err UnmodelledE else if strict then Err (LossyE 10) else
              let body := c_body c' in
              let p := (List.length body - 1)%nat in
              match nth_error body p with
              | Some (bk, v) => Ok (set_body (list_set p (bk, item_indent_insert ind v) body) c', tm)
              | None => Ok (c', tm)
              end
          end
      | Some ks =>
          match map_get ks (c_map c') with
          | Some (One i) =>
              match first_spaces (tr_indent (tm_trivia tm)) with
              | None => Ok (c', tm)
              | Some ind =>
                  if negb (is_own prox) then Err UnmodelledE else if strict then Err (LossyE 10) else
                  match nth_error (c_body c') i with
                  | Some (_, IVal (SBool _) _) => Err AttributeErrorE
                  | Some (bk, v) => Ok (set_body (list_set i (bk, item_indent_insert ind v) (c_body c')) c', tm)
                  | None => Err IndexErrorE
                  end
              end
          | Some (Many l) =>
              let* _ := proxy n c' l in
              match first_spaces (tr_indent (tm_trivia tm)) with
              | None => Ok (c', tm)
              | Some _ => Err AttributeErrorE
              end
          | None => Err (NonExistentKeyE ks)
          end
      end
  end
(** container.py:652-718 [_replace_at] (and 642-650 [_replace]) for [new_key == k] *)
with replace_at (fuel : nat) (strict : bool) (c : container) (ci : option cidx) (nk : newkey) (value : item)
     {struct fuel} : res container :=
  match fuel with
  | O => Err FuelE
  | S n =>
      let 'Cont body m p tks d := c in
      match ci with
      | None => Err (NonExistentKeyE (nk_key nk))
      | Some ci =>
          let '(body, ix) := match ci with
                             | One x => (body, x)
                             | Many l => (fold_left (fun b x => list_set x (None, INull) b) (tl l) body, hd 0%nat l)
                             end in
          match nth_error body ix with
          | Some (Some k, v) =>
              let changed := xorb (is_table_or_aot value) (is_table_or_aot v) in
              let nkey := match nk with
                          | NKKey k' => k'
                          | NKStr s => if changed || negb (str_eqb s (k_key k)) then skey_of_str s else k
                          end in
              let m := map_set (k_key nkey) (One ix) (map_del (k_key k) m) in
              let* res1 :=
                (if changed then
                   let* c1 := remove (Cont body m p tks d) (k_key k) in
                   let body1 := c_body c1 in
                   match find (fun i => match nth_error body1 i with
                                        | Some (_, x) => is_table_or_aot x | None => false end)
                              (seq ix (List.length body1 - ix)) with
                   | Some i => let* c2 := insert_at c1 i nkey value in Ok (c2, Some i)
                   | None => let* c2 := append n Own strict c1 (Some (KSingle nkey)) value true in Ok (c2, None)
                   end
                 else Ok (Cont (list_set ix (Some nkey, copy_trivia value v) body) m p tks d, Some ix)) in
              let '(c3, opos) := res1 in
              (* container.py:698-718; the value object now sits in c3's body *)
              if negb (is_table_or_aot value) then Ok c3 else
              let body3 := c_body c3 in
              let lastix := match last_nonnull body3 0 None with Some (i, _) => i | None => 0%nat end in
              let pos := match opos with Some i => i | None => lastix end in
              match nth_error body3 pos with
              | Some (bk, v3) =>
                  let v4 := inval_item v3 in
                  match v4 with
                  | ITable tc tmm =>
                      let has_ws := ends_with_whitespace v4 in
                      let replace_has_ws :=
                        match v with
                        | ITable oc _ => match last (map snd (c_body oc)) INull with IWs _ _ => true | _ => false end
                        | _ => false
                        end in
                      let next_ws := Nat.ltb pos lastix && match nth_error body3 (S pos) with
                                                           | Some (_, x) => is_wsitem x | None => false end in
                      let v5 := if (Nat.ltb pos lastix || replace_has_ws) && negb (next_ws || has_ws)
                                then table_push_ws tc tmm else v4 in
                      let 'Cont b q1 q2 q3 q4 := c3 in
                      Ok (Cont (list_set pos (bk, v5) b) q1 q2 q3 (dict_set (k_key nkey) q4))
                  | _ => Ok (set_body (list_set pos (bk, v4) body3) c3)
                  end
              | None => Ok c3
              end
          | Some (None, _) => Err AttributeErrorE
          | None => Err IndexErrorE
          end
      end
  end.

(** Number of entries of the table tree: bounds the recursion of [append]. *)
Fixpoint isize (i : item) : nat :=
  match i with ITable c _ => S (csize c) | _ => 1%nat end
with csize (c : container) : nat :=
  match c with
  | Cont body _ _ _ _ =>
      fold_right (fun (kv : option skey * item) n => match kv with (_, v) => (isize v + n)%nat end) O body
  end.
Definition app_fuel (c : container) (k : option key) (it : item) : nat :=
  (8 * (csize c + isize it + match k with Some k => List.length (key_parts k) | None => 0 end) + 8)%nat.

(** container.py:150-155 [_validate_out_of_order_table()] *)
Definition validate_all (c : container) : res unit :=
  fold_res (fun (_ : unit) kv => validate_key (app_fuel c None INull) c (fst kv)) (c_map c) tt.

(** [Container.append(key, item)] as called by the user and the parser *)
Definition cappend (strict : bool) (c : container) (k : option key) (it : item) : res container :=
  append (app_fuel c k it) Own strict c k it true.

(** items.py:1616-1630 [Table.raw_append] on the table's container *)
Definition table_raw_append (strict : bool) (c : container) (k : option key) (it : item) : res container :=
  let fuel := app_fuel c k it in
  let* c' := append fuel Own strict c k it false in
  match option_map (fun k => match key_parts k with x :: _ => k_key x | [] => [] end) k with
  | None => Ok c'
  | Some ks => match map_get ks (c_map c') with
               | Some (Many l) => let* _ := proxy fuel c' l in Ok c'
               | Some (One _) => Ok c'
               | None => Err (NonExistentKeyE ks)
               end
  end.

(** container.py:628-633 [__setitem__] with a plain string key *)
Definition set_item (c : container) (k : str) (v : item) : res container :=
  let fuel := app_fuel c (Some (KSingle (skey_of_str k))) v in
  let* present := contains fuel c k in
  if present then replace_at fuel false c (map_get k (c_map c)) (NKStr k) v
  else append fuel Own false c (Some (KSingle (skey_of_str k))) v true.

(** container.py:457-472 [item] for a key with one index *)
Definition get_item (c : container) (k : str) : option item :=
  match map_get k (c_map c) with
  | Some (One i) => option_map snd (nth_error (c_body c) i)
  | _ => None
  end.
