(** Heap: model of reading keys of a document with object identity.

    Looking up an out-of-order table (container.py:457-472, 788-807) builds an
    [OutOfOrderTableProxy], which appends the document's own Table, AoT and value
    objects to a fresh container; [Container.append] and [Table.append] may modify
    the objects they are given.  Objects therefore live in a heap here; a reference
    is the position of a cell. *)
From Verif Require Import Base Source Utils Items Container Arrays.
Open Scope nat_scope.

(** container.py:36-40; the body holds references. *)
Record hcont := mkHC { hc_body : list (option skey * nat); hc_map : list (str * cidx);
                       hc_parsed : bool; hc_tkeys : list str; hc_dict : list str }.
(** A Table with its container (nobody else refers to that container), an AoT, any
    other item.  The document itself is a [HTable] whose attributes do not matter. *)
Inductive cell :=
  | HLeaf (i : item)
  | HTable (c : hcont) (m : tmeta)
  | HAoT (l : list nat) (name : option str) (parsed : bool) (t : trivia).
Definition heap := list cell.

(** The tree an object stands for. *)
Fixpoint opt_list {A B} (f : A -> option B) (l : list A) : option (list B) :=
  match l with
  | [] => Some []
  | x :: l' => match f x, opt_list f l' with Some y, Some r => Some (y :: r) | _, _ => None end
  end.
Fixpoint h_tree (fuel : nat) (h : heap) (r : nat) : option item :=
  match fuel with
  | O => None
  | S n =>
      match nth_error h r with
      | Some (HLeaf i) => Some i
      | Some (HTable c m) =>
          option_map (fun b => ITable (Cont b (hc_map c) (hc_parsed c) (hc_tkeys c) (hc_dict c)) m)
            (opt_list (fun kv : option skey * nat => option_map (fun i => (fst kv, i)) (h_tree n h (snd kv))) (hc_body c))
      | Some (HAoT l nm p t) =>
          option_map (fun b => IAoT b nm p t)
            (opt_list (fun x => match h_tree n h x with Some (ITable c m) => Some (c, m) | _ => None end) l)
      | None => None
      end
  end.
(** [doc.as_string()] *)
Definition h_text (fuel : nat) (h : heap) (r : nat) : option str := option_map item_string (h_tree fuel h r).

(** Putting a tree in the heap. *)
Definition h_new (c : cell) (h : heap) : nat * heap := (List.length h, h ++ [c]).
Fixpoint h_load (i : item) (h : heap) : nat * heap :=
  match i with
  | ITable c tm => let '(hc, h) := h_load_cont c h in h_new (HTable hc tm) h
  | IAoT l n p t =>
      let '(b, h) := (fix go (l : list (container * tmeta)) (h : heap) : list nat * heap :=
                        match l with
                        | [] => ([], h)
                        | (c, m) :: l' =>
                            let '(hc, h) := h_load_cont c h in
                            let '(r, h) := h_new (HTable hc m) h in
                            let '(b, h) := go l' h in (r :: b, h)
                        end) l h in
      h_new (HAoT b n p t) h
  | _ => h_new (HLeaf i) h
  end
with h_load_cont (c : container) (h : heap) : hcont * heap :=
  match c with
  | Cont body m p tks d =>
      let '(b, h) := (fix go (l : list (option skey * item)) (h : heap) : list (option skey * nat) * heap :=
                        match l with
                        | [] => ([], h)
                        | (k, v) :: l' => let '(r, h) := h_load v h in let '(b, h) := go l' h in ((k, r) :: b, h)
                        end) body h in
      (mkHC b m p tks d, h)
  end.
Definition plain_meta : tmeta := mkTM default_trivia false None None None.
Definition h_doc (c : container) : nat * heap := h_load (ITable c plain_meta) [].

(** State and exceptions: the heap survives an exception. *)
Definition H (A : Type) := heap -> res A * heap.
Definition hret {A} (a : A) : H A := fun h => (Ok a, h).
Definition hfail {A} (e : exn) : H A := fun h => (Err e, h).
Definition hbind {A B} (m : H A) (f : A -> H B) : H B :=
  fun h => match m h with (Ok a, h') => f a h' | (Err e, h') => (Err e, h') end.
Notation "x <-- m ; k" := (hbind m (fun x => k)) (at level 100, m at next level, right associativity).
Definition hcell (r : nat) : H cell := fun h => match nth_error h r with Some c => (Ok c, h) | None => (Err TypeErrorE, h) end.
Definition hset (r : nat) (c : cell) : H unit := fun h => (Ok tt, list_set r c h).
Definition halloc (c : cell) : H nat := fun h => (Ok (List.length h), h ++ [c]).
Fixpoint hiter {A} (f : A -> H unit) (l : list A) : H unit :=
  match l with [] => hret tt | x :: l' => _ <-- f x; hiter f l' end.

Definition cell_is_table (c : cell) : bool := match c with HTable _ _ => true | _ => false end.
Definition cell_is_aot (c : cell) : bool := match c with HAoT _ _ _ _ => true | _ => false end.
Definition cell_is_ws (c : cell) : bool := match c with HLeaf (IWs _ _) => true | _ => false end.
Definition cell_is_null (c : cell) : bool := match c with HLeaf INull => true | _ => false end.
Definition cell_trivia (c : cell) : trivia :=
  match c with HLeaf i => item_trivia i | HTable _ m => tm_trivia m | HAoT _ _ _ t => t end.
Definition cell_set_trivia (t : trivia) (c : cell) : cell :=
  match c with
  | HLeaf i => HLeaf (set_trivia t i)
  | HTable c m => HTable c (set_tm_trivia t m)
  | HAoT l n p _ => HAoT l n p t
  end.

(** container.py:768-786: the last body entry that is not Null. *)
Fixpoint h_prev (l : list (option skey * nat)) (acc : option nat) : H (option nat) :=
  match l with
  | [] => hret acc
  | (_, r) :: l' => c <-- hcell r; h_prev l' (if cell_is_null c then acc else Some r)
  end.
(** container.py:869-875 *)
Definition h_ends_ws (r : nat) : H bool :=
  c <-- hcell r;
  match c with
  | HTable hc _ =>
      p <-- h_prev (hc_body hc) None;
      match p with Some r' => c' <-- hcell r'; hret (cell_is_ws c') | None => hret false end
  | _ => hret false
  end.
(** container.py:136-148 *)
Fixpoint h_last_index (l : list (option skey * nat)) (i acc : nat) : H nat :=
  match l with
  | [] => hret acc
  | (k, r) :: l' =>
      c <-- hcell r;
      if cell_is_null c then h_last_index l' (S i) acc
      else if match c with HLeaf (IWs _ f) => negb f | _ => false end then h_last_index l' (S i) acc
      else if (cell_is_table c || cell_is_aot c) && negb (match k with Some k => k_dotted k | None => false end) then hret acc
      else h_last_index l' (S i) (S i)
  end.
(** items.py:1636-1645 [is_super_table] *)
Definition h_is_super (c : hcont) (m : tmeta) : H bool :=
  match tm_super m with
  | Some b => hret b
  | None =>
      match hc_dict c with
      | [k] => match map_get k (hc_map c) with
               | Some (One i) => match nth_error (hc_body c) i with
                                 | Some (_, r) => x <-- hcell r; hret (cell_is_table x || cell_is_aot x)
                                 | None => hret false
                                 end
               | _ => hret false
               end
      | _ => hret false
      end
  end.
Definition h_table (r : nat) : H (hcont * tmeta) :=
  c <-- hcell r; match c with HTable hc m => hret (hc, m) | _ => hfail TypeErrorE end.
Definition h_set_cont (r : nat) (f : hcont -> hcont) : H unit :=
  x <-- h_table r; hset r (HTable (f (fst x)) (snd x)).
(** container.py:303-324 [_raw_append] *)
Definition h_raw_append (dst : nat) (k : option skey) (r : nat) : H unit :=
  x <-- h_table dst;
  let '(mkHC body m p tks d, tm) := x in
  match k with
  | None => hset dst (HTable (mkHC (body ++ [(None, r)]) m p tks d) tm)
  | Some k' =>
      let n := List.length body in
      it <-- hcell r;
      m' <-- match map_get (k_key k') m with
             | Some i =>
                 let l := match i with One x => [x] | Many l => l end in
                 match nth_error body (last l 0) with
                 | Some (_, cr) => cur <-- hcell cr;
                                   if cell_is_table cur then hret (map_set (k_key k') (Many (l ++ [n])) m)
                                   else hfail (KeyAlreadyPresentE (k_key k'))
                 | None => hfail IndexErrorE
                 end
             | None => hret (map_set (k_key k') (One n) m)
             end;
      hset dst (HTable (mkHC (body ++ [(k, r)]) m' p
                             (if cell_is_table it then tks ++ [k_key k'] else tks) (dict_set (k_key k') d)) tm)
  end.
(** [x.trivia.trail += "\n"] *)
Definition h_add_nl (r : nat) : H unit :=
  c <-- hcell r;
  hset r (cell_set_trivia (with_trail (tr_trail (cell_trivia c) ++ [chLF]) (cell_trivia c)) c).
(** Does a previous item need a newline? container.py:291-297, 423-429 *)
Definition h_needs_nl (r : nat) : H bool :=
  c <-- hcell r; w <-- h_ends_ws r;
  hret (negb (cell_is_ws c || w || inb chLF (tr_trail (cell_trivia c)))).
(** container.py:411-455 [_insert_at] *)
Definition h_insert_at (dst idx : nat) (k : skey) (r : nat) : H unit :=
  x <-- h_table dst;
  let '(mkHC body m p tks d, tm) := x in
  if Nat.ltb (List.length body - 1) idx || Nat.eqb (List.length body) 0 then hfail ValueErrorE
  else
    it <-- hcell r;
    _ <-- match idx with
          | O => hret tt
          | S i => match nth_error body i with
                   | Some (_, pr) => b <-- h_needs_nl pr;
                                     if b && negb (cell_is_table it || cell_is_aot it) then h_add_nl pr else hret tt
                   | None => hret tt
                   end
          end;
    let m := map (fun kv => (fst kv, bump_idx idx (snd kv))) m in
    let m := match map_get (k_key k) m with
             | Some (One x) => map_set (k_key k) (Many [x; idx]) m
             | Some (Many l) => map_set (k_key k) (Many (l ++ [idx])) m
             | None => map_set (k_key k) (One idx) m
             end in
    h_set_cont dst (fun c => mkHC (list_insert idx (Some k, r) (hc_body c)) m p tks (dict_set (k_key k) d)).
(** container.py:276-301 the end of [append] *)
Definition h_append_end (dst : nat) (k : option skey) (r : nat) : H unit :=
  x <-- h_table dst; it <-- hcell r;
  let '(mkHC body m p tks d, tm) := x in
  match k with
  | Some k' =>
      if Nat.ltb 0 (List.length body) && negb p && (negb (cell_is_table it || cell_is_aot it) || k_dotted k')
      then
        li <-- h_last_index body 0 0;
        if Nat.ltb li (List.length body) then h_insert_at dst li k' r
        else match nth_error body (List.length body - 1) with
             | Some (_, pr) => b <-- h_needs_nl pr;
                               _ <-- (if b then h_add_nl pr else hret tt); h_raw_append dst k r
             | None => h_raw_append dst k r
             end
      else h_raw_append dst k r
  | None => h_raw_append dst k r
  end.

(** [copy.deepcopy] of a Table (items.py:528-532, container.py:735-750): all its
    objects are new.  Inside one deep copy no object occurs twice. *)
Fixpoint h_copy (fuel : nat) (r : nat) : H nat :=
  match fuel with
  | O => hfail FuelE
  | S n =>
      c <-- hcell r;
      match c with
      | HLeaf i => halloc (HLeaf i)
      | HTable hc m =>
          b <-- (fix go (l : list (option skey * nat)) : H (list (option skey * nat)) :=
                   match l with
                   | [] => hret []
                   | (k, x) :: l' => y <-- h_copy n x; rest <-- go l'; hret ((k, y) :: rest)
                   end) (hc_body hc);
          halloc (HTable (mkHC b (hc_map hc) (hc_parsed hc) (hc_tkeys hc) (hc_dict hc)) m)
      | HAoT l nm p t =>
          b <-- (fix go (l : list nat) : H (list nat) :=
                   match l with [] => hret [] | x :: l' => y <-- h_copy n x; rest <-- go l'; hret (y :: rest) end) l;
          halloc (HAoT b nm p t)
      end
  end.

Definition h_nonempty_dict (c : cell) : bool := match c with HTable hc _ => Nat.ltb 0 (List.length (hc_dict hc)) | _ => false end.
Definition has_nl (c : cell) : bool := inb chLF (tr_indent (cell_trivia c)).
Definition nl_first (c : cell) : cell := cell_set_trivia (with_indent (chLF :: tr_indent (cell_trivia c)) (cell_trivia c)) c.
(** items.py:1892-1922 [AoT.append] of a table object *)
Definition h_aot_append (a x : nat) : H unit :=
  c <-- hcell a;
  match c with
  | HAoT l nm p t =>
      cx <-- hcell x;
      _ <-- match first_spaces (tr_indent t) with
            | Some ind => hset x (cell_set_trivia (with_indent (indent_insert ind (tr_indent (cell_trivia cx))) (cell_trivia cx)) cx)
            | None => hret tt
            end;
      _ <-- (if p then hret tt else
               match l with
               | [] => hret tt
               | _ => pc <-- hcell (last l 0); cx <-- hcell x;
                      if h_nonempty_dict pc && negb (has_nl cx) then hset x (nl_first cx) else hret tt
               end);
      hset a (HAoT (l ++ [x]) nm p t)
  | _ => hfail TypeErrorE
  end.

(** container.py:177-178 *)
Definition h_prev_ws (body : list (option skey * nat)) : H bool :=
  pr <-- h_prev body None;
  match pr with
  | Some y => c <-- hcell y; w <-- h_ends_ws y; hret (cell_is_ws c || w)
  | None => hret false
  end.
(** container.py:179-192: changes to the table [r] about to be appended; [p]: the
    container is being parsed. *)
Definition h_cosmetics (inval : nat -> H unit) (p nonempty prev_ws dotted : bool) (r : nat) (it : cell) : H unit :=
  match it with
  | HTable _ _ =>
      _ <-- (if p then hret tt else inval r);
      c <-- hcell r;
      if nonempty && negb (p || negb (str_eqb (tr_indent (cell_trivia c)) []) || prev_ws) && negb dotted
      then hset r (cell_set_trivia (with_indent [chLF] (cell_trivia c)) c) else hret tt
  | HAoT (y :: _) _ _ _ =>
      if nonempty && negb p then
        _ <-- inval r;
        c <-- hcell y;
        if negb (has_nl c || prev_ws) then hset y (nl_first c) else hret tt
      else hret tt
  | _ => hret tt
  end.

(** The mutually recursive core: [append], [in], the proxy, validation,
    [Table.append] and [invalidate_display_name].  Keys of a body are single keys.
    Left out: the branch of [append] that turns a Table into an AoT
    (container.py:210-213, [UnmodelledE] here), and giving a nameless table its
    key as name (174-175): names are never rendered. *)
Fixpoint h_append (fuel : nat) (dst : nat) (k : option skey) (r : nat) (validate : bool) {struct fuel} : H unit :=
  match fuel with
  | O => hfail FuelE
  | S n =>
      x <-- h_table dst;
      let '(mkHC body m p tks d, _) := x in
      it <-- hcell r;
      prev_ws <-- h_prev_ws body;
      _ <-- h_cosmetics (h_inval n) p (Nat.ltb 0 (List.length body)) prev_ws
                        (match k with Some k => k_dotted k | None => false end) r it;
      it <-- hcell r;
      match k with
      | None => h_append_end dst None r
      | Some k' =>
          present <-- h_contains n dst (k_key k');
          if negb present then h_append_end dst k r
          else
            x <-- h_table dst;
            let '(mkHC body m p tks d, _) := x in
            match map_get (k_key k') m with
            | None => hfail KeyErrorE
            | Some ci =>
                let pos := match ci with One x => x | Many l => last l 0 end in
                match nth_error body pos with
                | None => hfail IndexErrorE
                | Some (ck, cr) =>
                    cur <-- hcell cr;
                    let cur_dotted := match ck with Some x => k_dotted x | None => false end in
                    match it with
                    | HTable ic im =>
                        match cur with
                        | HLeaf _ => hfail (KeyAlreadyPresentE (k_key k'))
                        | HAoT _ _ _ _ => if tm_aot im then h_aot_append cr r else hfail (KeyAlreadyPresentE (k_key k'))
                        | HTable cc cm =>
                            if tm_aot im then hfail UnmodelledE
                            else
                              cs <-- h_is_super cc cm; is <-- h_is_super ic im;
                              if cs then
                                if is then
                                  cond <-- (if k_dotted k' || cur_dotted then hret true
                                            else match tks with
                                                 | [] => hfail IndexErrorE
                                                 | _ => hret (negb (str_eqb (last tks []) (match ck with Some x => k_key x | None => [] end)))
                                                 end);
                                  if cond : bool then
                                    ix <-- (if k_dotted k' && negb p then h_last_index body 0 0 else hret (List.length body));
                                    _ <-- (if Nat.ltb ix (List.length body) then h_insert_at dst ix k' r else h_raw_append dst k r);
                                    if validate then h_validate n dst (k_key k') else hret tt
                                  else
                                    (* container.py:250-257 *)
                                    cp <-- h_copy n cr;
                                    _ <-- hiter (fun kv => h_table_append n cp (fst kv) (snd kv)) (hc_body ic);
                                    h_set_cont dst (fun c => mkHC (list_set pos (ck, cp) (hc_body c)) (hc_map c) (hc_parsed c) (hc_tkeys c) (hc_dict c))
                                else if cur_dotted then hfail TOMLKitErrorE
                                else h_append_end dst k r
                              else if negb is then hfail (KeyAlreadyPresentE (k_key k'))
                              else h_append_end dst k r
                        end
                    | HAoT il _ _ _ =>
                        match cur with
                        | HAoT _ _ _ _ => hiter (h_aot_append cr) il
                        | _ => hfail (KeyAlreadyPresentE (k_key k'))
                        end
                    | HLeaf _ => hfail (KeyAlreadyPresentE (k_key k'))
                    end
                end
            end
      end
  end
(** [k in container] *)
with h_contains (fuel : nat) (dst : nat) (k : str) {struct fuel} : H bool :=
  match fuel with
  | O => hfail FuelE
  | S n =>
      x <-- h_table dst;
      match map_get k (hc_map (fst x)) with
      | None => hret false
      | Some (One _) => hret true
      | Some (Many l) => _ <-- h_proxy n dst l; hret true
      end
  end
(** container.py:788-807; the reference of the internal container. *)
with h_proxy (fuel : nat) (dst : nat) (idxs : list nat) {struct fuel} : H nat :=
  match fuel with
  | O => hfail FuelE
  | S n =>
      ic <-- halloc (HTable (mkHC [] [] true [] []) plain_meta);
      _ <-- hiter (fun i =>
              x <-- h_table dst;
              match nth_error (hc_body (fst x)) i with
              | Some (_, r) =>
                  c <-- hcell r;
                  match c with
                  | HTable tc _ => hiter (fun kv => h_append n ic (fst kv) (snd kv) false) (hc_body tc)
                  | _ => hret tt
                  end
              | None => hfail IndexErrorE
              end) idxs;
      x <-- h_table ic;
      _ <-- hiter (fun kv => h_validate n ic (fst kv)) (hc_map (fst x));
      hret ic
  end
(** container.py:150-158 *)
with h_validate (fuel : nat) (dst : nat) (k : str) {struct fuel} : H unit :=
  match fuel with
  | O => hfail FuelE
  | S n =>
      x <-- h_table dst;
      match map_get k (hc_map (fst x)) with
      | Some (Many l) => _ <-- h_proxy n dst l; hret tt
      | _ => hret tt
      end
  end
(** items.py:1585-1614 *)
with h_table_append (fuel : nat) (dst : nat) (k : option skey) (r : nat) {struct fuel} : H unit :=
  match fuel with
  | O => hfail FuelE
  | S n =>
      _ <-- h_append n dst k r true;
      x <-- h_table dst;
      y <-- match k with
            | None => hret (Some r)
            | Some k' =>
                match map_get (k_key k') (hc_map (fst x)) with
                | Some (One i) => match nth_error (hc_body (fst x)) i with Some (_, y) => hret (Some y) | None => hfail IndexErrorE end
                | Some (Many l) => _ <-- h_proxy n dst l; hret None
                | None => hfail (NonExistentKeyE (k_key k'))
                end
            end;
      match first_spaces (tr_indent (tm_trivia (snd x))) with
      | None => hret tt
      | Some ind =>
          match y with
          | None => hfail AttributeErrorE
          | Some y =>
              c <-- hcell y;
              match c, k with
              | HLeaf (IWs _ _), _ => hret tt
              | HLeaf (IVal (SBool _) _), Some _ => hfail AttributeErrorE
              | _, _ => hset y (cell_set_trivia (with_indent (indent_insert ind (tr_indent (cell_trivia c))) (cell_trivia c)) c)
              end
          end
      end
  end
(** items.py:1668-1674, 1924-1928 [invalidate_display_name]: the children are
    reached through [self.values()], i.e. by reading every key. *)
with h_inval (fuel : nat) (r : nat) {struct fuel} : H unit :=
  match fuel with
  | O => hfail FuelE
  | S n =>
      c <-- hcell r;
      match c with
      | HTable hc m =>
          _ <-- hset r (HTable hc (mkTM (tm_trivia m) (tm_aot m) (tm_super m) (tm_name m) None));
          hiter (fun k =>
            match map_get k (hc_map hc) with
            | Some (One i) => match nth_error (hc_body hc) i with
                              | Some (_, y) => h_inval n y
                              | None => hfail IndexErrorE
                              end
            | Some (Many l) => _ <-- h_proxy n r l; hret tt
            | None => hfail (NonExistentKeyE k)
            end) (hc_dict hc)
      | HAoT l _ _ _ => hiter (h_inval n) l
      | HLeaf _ => hret tt
      end
  end.

(** [t[k]] for a document, Table or proxy (through its internal container): the
    reference of the result. *)
Definition h_get (fuel : nat) (t : nat) (k : str) : H nat :=
  x <-- h_table t;
  match map_get k (hc_map (fst x)) with
  | None => hfail (NonExistentKeyE k)
  | Some (One i) => match nth_error (hc_body (fst x)) i with Some (_, r) => hret r | None => hfail IndexErrorE end
  | Some (Many l) => h_proxy fuel t l
  end.
(** [aot[i]], [i >= 0] *)
Definition h_nth (a : nat) (i : nat) : H nat :=
  c <-- hcell a;
  match c with
  | HAoT l _ _ _ => match nth_error l i with Some r => hret r | None => hfail IndexErrorE end
  | _ => hfail TypeErrorE
  end.
(** A client that reads: [ops] may use any object obtained so far. *)
Inductive rop := RGet (t : nat) (k : str) | RNth (a i : nat).
Definition h_read (fuel : nat) (o : rop) : H nat := match o with RGet t k => h_get fuel t k | RNth a i => h_nth a i end.
Fixpoint h_reads (fuel : nat) (ops : list rop) (h : heap) : heap :=
  match ops with [] => h | o :: ops' => h_reads fuel ops' (snd (h_read fuel o h)) end.
