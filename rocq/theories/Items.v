(** Items: model of the data types of tomlkit/items.py, of [Container]'s data
    (tomlkit/container.py:36-40) and of rendering ([as_string] methods of
    items.py and container.py:479-612). *)
From Verif Require Import Base Utils.

(** items.py:313-329 *)
Record trivia := mkTrivia { tr_indent : str; tr_cws : str; tr_comment : str; tr_trail : str }.
Definition default_trivia : trivia := mkTrivia [] [] [] [chLF].

(** items.py:231-239 *)
Inductive strtype := SLB | MLB | SLL | MLL.
(** items.py:274-296 *)
Definition st_value (t : strtype) : str :=
  match t with SLB => [chDQ] | MLB => [chDQ; chDQ; chDQ] | SLL => [chSQ] | MLL => [chSQ; chSQ; chSQ] end.
Definition st_unit (t : strtype) : char := match t with SLB | MLB => chDQ | SLL | MLL => chSQ end.
Definition st_basic (t : strtype) : bool := match t with SLB | MLB => true | _ => false end.
Definition st_multiline (t : strtype) : bool := match t with MLB | MLL => true | _ => false end.
Definition st_toggle (t : strtype) : strtype :=
  match t with SLB => MLB | MLB => SLB | SLL => MLL | MLL => SLL end.
(** items.py:242-248 [StringType.select] *)
Definition st_select (literal multiline : bool) : strtype :=
  match literal, multiline with
  | false, false => SLB | false, true => MLB | true, false => SLL | true, true => MLL end.

Definition list_minus (a b : list str) : list str :=
  filter (fun x => negb (existsb (str_eqb x) b)) a.
Definition nlcr : list str := [[chLF]; [chCR]].
(** items.py:250-260 [escaped_sequences], in one fixed order *)
Definition escaped_sequences (t : strtype) : list str :=
  let escaped_in_basic := control_chars ++ [[chBSL]] in
  match t with
  | SLB => escaped_in_basic ++ [[chDQ]]
  | MLB => list_minus (escaped_in_basic ++ [[chDQ; chDQ; chDQ]]) nlcr
  | SLL | MLL => []
  end.
(** items.py:262-272 [invalid_sequences] *)
Definition invalid_sequences (t : strtype) : list str :=
  let forbidden_in_literal := list_minus control_chars [[chTAB]] in
  match t with
  | SLB | MLB => []
  | SLL => forbidden_in_literal ++ [[chSQ]]
  | MLL => list_minus (forbidden_in_literal ++ [[chSQ; chSQ; chSQ]]) nlcr
  end.

(** items.py:332-342 *)
Inductive keytype := KTBare | KTBasic | KTLiteral.
Definition kt_value (t : keytype) : str :=
  match t with KTBare => [] | KTBasic => [chDQ] | KTLiteral => [chSQ] end.

(** items.py:389-419 [SingleKey]; [k_dotted] is [_dotted]. *)
Record skey := mkSKey { k_key : str; k_t : keytype; k_sep : str; k_orig : str; k_dotted : bool }.

(** items.py:392-419: construction from a plain string ([t], [sep], [original] all
    None). *)
Definition bare_ok (k : str) : bool :=
  match k with [] => false | _ => forallb is_bare_key_char k end.
Definition skey_of_str (k : str) : skey :=
  let t := if bare_ok k then KTBare else KTBasic in
  let ks := match t with KTBasic => escape_string basic_escapes k | _ => k end in
  mkSKey k t (L " = ") (kt_value t ++ ks ++ kt_value t) false.

(** items.py:345-460 [Key]: a single or a dotted key. *)
Inductive key :=
  | KSingle (k : skey)
  | KDotted (ks : list skey) (sep : str) (orig : str).

Definition key_parts (k : key) : list skey := match k with KSingle s => [s] | KDotted ks _ _ => ks end.
Definition key_sep (k : key) : str := match k with KSingle s => k_sep s | KDotted _ s _ => s end.
(** items.py:378-380 *)
Definition key_string (k : key) : str := match k with KSingle s => k_orig s | KDotted _ _ o => o end.
(** items.py:374-376 *)
Definition key_is_multi (k : key) : bool := Nat.ltb 1 (List.length (key_parts k)).
(** items.py:449-454: original of a dotted key *)
Definition dotted_of (ks : list skey) (sep : str) : key :=
  KDotted ks sep (join [chDOT] (map k_orig ks)).
(** items.py:369-372 [concat] *)
Definition key_concat (a b : key) : key := dotted_of (key_parts a ++ key_parts b) (key_sep a).
Definition set_sep (s : str) (k : skey) : skey := mkSKey (k_key k) (k_t k) s (k_orig k) (k_dotted k).
Definition key_set_sep (s : str) (k : key) : key :=
  match k with KSingle x => KSingle (set_sep s x) | KDotted ks _ o => KDotted ks s o end.
Definition set_dotted (k : skey) : skey := mkSKey (k_key k) (k_t k) (k_sep k) (k_orig k) true.
(** items.py:433-437,459-460 [__eq__] between keys *)
Fixpoint skeys_eqb (a b : list skey) : bool :=
  match a, b with
  | [], [] => true
  | x :: a', y :: b' => str_eqb (k_key x) (k_key y) && skeys_eqb a' b'
  | _, _ => false
  end.
Definition key_eqb (a b : key) : bool :=
  match a, b with
  | KSingle x, KSingle y => str_eqb (k_key x) (k_key y)
  | KDotted x _ _, KDotted y _ _ => skeys_eqb x y
  | _, _ => false
  end.

(** Scalar items: items.py Integer (593), Float (687), Bool (766), DateTime (812),
    Date (964), Time (1025), String (1779); without their trivia. *)
Inductive scalar :=
  | SInt (v : Z) (raw : str)
  | SFloat (v : fval) (raw : str)
  | SBool (b : bool)
  | SDateTime (v : datetime) (raw : str)
  | SDate (v : date) (raw : str)
  | STime (v : time) (raw : str)
  | SStr (t : strtype) (v : str) (orig : str).

(** items.py:1098-1116 [_ArrayItemGroup]; whitespace and comma are the strings of
    their [Whitespace] items. *)
Record agroup (A : Type) := mkGroup {
  g_indent : option str; g_value : option A; g_comma : option str; g_comment : option trivia }.
Arguments mkGroup {A}. Arguments g_indent {A}. Arguments g_value {A}. Arguments g_comma {A}. Arguments g_comment {A}.

(** items.py:1550-1569 [Table] attributes other than the container. *)
Record tmeta := mkTM { tm_trivia : trivia; tm_aot : bool; tm_super : option bool;
                       tm_name : option str; tm_disp : option str }.

(** container.py:37: value of [_map]: an index or a tuple of indices. *)
Inductive cidx := One (n : nat) | Many (l : list nat).

(** The item tree.  [Array] keeps only its groups: its list view is the sequence
    of group values (theorems about [Array] in Arrays.v justify this).  Tables of
    an [AoT] are (container, attributes) pairs.  [Null]'s trivia is never
    rendered and is dropped.  [container] is [Cont body map parsed table_keys
    dict] where [dict] is the key order of the underlying Python dict
    (container.py:36-40, 321-322); the stale values of that dict are not
    observable and are not modelled. *)
Inductive item :=
  | IWs (s : str) (fixed : bool)
  | IComment (t : trivia)
  | INull
  | IVal (v : scalar) (t : trivia)
  | IArray (gs : list (agroup item)) (t : trivia) (multiline : bool)
  | IInline (c : container) (t : trivia) (new : bool)
  | ITable (c : container) (m : tmeta)
  | IAoT (l : list (container * tmeta)) (name : option str) (parsed : bool) (t : trivia)
with container :=
  | Cont (body : list (option skey * item)) (cmap : list (str * cidx)) (parsed : bool)
         (tkeys : list str) (dict : list str).

Definition c_body (c : container) := let 'Cont b _ _ _ _ := c in b.
Definition c_map (c : container) := let 'Cont _ m _ _ _ := c in m.
Definition c_parsed (c : container) := let 'Cont _ _ p _ _ := c in p.
Definition c_tkeys (c : container) := let 'Cont _ _ _ t _ := c in t.
Definition c_dict (c : container) := let 'Cont _ _ _ _ d := c in d.

(** container.py:36-40 *)
Definition empty_cont (parsed : bool) : container := Cont [] [] parsed [] [].

Definition is_table (i : item) : bool := match i with ITable _ _ => true | _ => false end.
Definition is_aot (i : item) : bool := match i with IAoT _ _ _ _ => true | _ => false end.
Definition is_table_or_aot (i : item) : bool := is_table i || is_aot i.
Definition is_wsitem (i : item) : bool := match i with IWs _ _ => true | _ => false end.
Definition is_null (i : item) : bool := match i with INull => true | _ => false end.

(** The item's trivia; whitespace has none (items.py:553-555 raises). *)
Definition item_trivia (i : item) : trivia :=
  match i with
  | IComment t | IVal _ t | IArray _ t _ | IInline _ t _ => t
  | ITable _ m => tm_trivia m
  | IAoT _ _ _ t => t
  | INull => mkTrivia [] [] [] []
  | IWs _ _ => mkTrivia [] [] [] []
  end.
Definition set_tm_trivia (t : trivia) (m : tmeta) : tmeta :=
  mkTM t (tm_aot m) (tm_super m) (tm_name m) (tm_disp m).
Definition set_trivia (t : trivia) (i : item) : item :=
  match i with
  | IComment _ => IComment t
  | IVal v _ => IVal v t
  | IArray g _ ml => IArray g t ml
  | IInline c _ n => IInline c t n
  | ITable c m => ITable c (set_tm_trivia t m)
  | IAoT l n p _ => IAoT l n p t
  | INull => INull
  | IWs s f => IWs s f
  end.
Definition with_indent (s : str) (t : trivia) := mkTrivia s (tr_cws t) (tr_comment t) (tr_trail t).
Definition with_cws (s : str) (t : trivia) := mkTrivia (tr_indent t) s (tr_comment t) (tr_trail t).
Definition with_comment (s : str) (t : trivia) := mkTrivia (tr_indent t) (tr_cws t) s (tr_trail t).
Definition with_trail (s : str) (t : trivia) := mkTrivia (tr_indent t) (tr_cws t) (tr_comment t) s.

(** Python dict lookup in [_map] *)
Fixpoint map_get (k : str) (m : list (str * cidx)) : option cidx :=
  match m with
  | [] => None
  | (k', i) :: m' => if str_eqb k k' then Some i else map_get k m'
  end.

(** items.py:1636-1645 [Table.is_super_table].  For an out-of-order only child
    the Python code sees an OutOfOrderTableProxy, which is not a Table. *)
Definition table_is_super (c : container) (m : tmeta) : bool :=
  match tm_super m with
  | Some b => b
  | None =>
      match c_dict c with
      | [k] => match map_get k (c_map c) with
               | Some (One i) => match nth_error (c_body c) i with
                                 | Some (_, v) => is_table_or_aot v
                                 | None => false
                                 end
               | _ => false
               end
      | _ => false
      end
  end.

(** [as_string] of the scalar items: items.py:627, 721, 788, 884, 991, 1067, 1804 *)
Definition scalar_string (v : scalar) : str :=
  match v with
  | SInt _ raw | SFloat _ raw | SDateTime _ raw | SDate _ raw | STime _ raw => raw
  | SBool b => if b then L "true" else L "false"
  | SStr t _ o => st_value t ++ o ++ st_value t
  end.

(** items.py:584-587 [Comment.as_string] *)
Definition comment_string (t : trivia) : str := tr_indent t ++ tr_comment t ++ tr_trail t.

Definition opt_str (o : option str) : str := match o with Some s => s | None => [] end.

(** container.py:517-528 / 569-577: the header line of a table. *)
Definition header (op k cl : str) (t : trivia) : str :=
  tr_indent t ++ op ++ k ++ cl ++ tr_cws t ++ tr_comment t ++ tr_trail t.

Definition prefixed (prefix : option str) (k : str) : str :=
  match prefix with Some p => p ++ [chDOT] ++ k | None => k end.

(** container.py:596-612 [_render_simple_item] around the value text [vs]. *)
Definition simple_text (k : option skey) (t : trivia) (vs : str) (prefix : option str) : str :=
  match k with
  | None => vs
  | Some k => tr_indent t ++ prefixed prefix (k_orig k) ++ k_sep k ++ vs
              ++ tr_cws t ++ tr_comment t ++ tr_trail t
  end.

(** index of the last body entry with a key: items.py:1728-1735 *)
Fixpoint last_keyed (body : list (option skey * item)) (i : nat) (acc : option nat) : option nat :=
  match body with
  | [] => acc
  | (Some _, _) :: b => last_keyed b (S i) (Some i)
  | (None, _) :: b => last_keyed b (S i) acc
  end.

(** The mutually recursive renderers. *)
Fixpoint item_string (i : item) {struct i} : str :=
  match i with
  | IWs s _ => s                                            (* items.py:565-566 *)
  | IComment t => comment_string t
  | INull => []                                             (* items.py:1963-1964 *)
  | IVal v _ => scalar_string v
  | IArray gs t ml =>                                       (* items.py:1216-1233 *)
      let gstr := fun g : agroup item =>                    (* items.py:1113-1116, 1193-1195 *)
        match g with
        | mkGroup ind v com cmt =>
            opt_str ind ++ (match v with Some x => item_string x | None => [] end) ++ opt_str com
            ++ (match cmt with Some c => comment_string c | None => [] end)
        end in
      let mstr := fun g : agroup item =>
        match g with
        | mkGroup ind v com cmt =>
            match v with
            | None => []
            | Some x => tr_indent t ++ L "    " ++ item_string x
                        ++ (if is_null x then [] else [chCOMMA])
                        ++ (match cmt with Some c => comment_string c | None => [] end) ++ [chLF]
            end
        end in
      match ml, gs with
      | true, _ :: _ => [chLBR; chLF] ++ flat_map mstr gs ++ tr_indent t ++ [chRBR]
      | _, _ => [chLBR] ++ flat_map gstr gs ++ [chRBR]
      end
  | ITable c _ => cont_string c                             (* items.py:1647-1648 *)
  | IAoT l _ _ _ => flat_map (fun p => match p with (c, _) => cont_string c end) l  (* items.py:1930-1935 *)
  | IInline c _ new =>                                      (* items.py:1726-1765 *)
      match c with
      | Cont body _ _ _ _ =>
          let n := List.length body in
          let last := last_keyed body 0 None in
          let step := fun (acc : nat * str) (kv : option skey * item) =>
            match acc, kv with
            | (i, buf), (k, v) =>
                match k with
                | None =>
                    let buf := if Nat.eqb i (n - 1)
                               then if new then rstrip_p (fun c => (c =? chCOMMA) || (c =? chSP)) buf
                                    else rstrip_p (fun c => c =? chCOMMA) buf
                               else buf in
                    (S i, buf ++ item_string v)
                | Some k =>
                    let t := item_trivia v in
                    let buf := buf ++ tr_indent t ++ k_orig k ++ (if k_dotted k then [chDOT] else [])
                               ++ k_sep k ++ item_string v ++ tr_comment t
                               ++ replace [chLF] [] (tr_trail t) in
                    let buf := match last with
                               | Some li => if Nat.ltb i li
                                            then buf ++ [chCOMMA] ++ (if new then [chSP] else [])
                                            else buf
                               | None => buf
                               end in
                    (S i, buf)
                end
            end in
          snd (fold_left step body (0%nat, [chLCB])) ++ [chRCB]
      end
  end
(** container.py:479-493 [Container.as_string] *)
with cont_string (c : container) {struct c} : str :=
  match c with
  | Cont body _ _ _ _ =>
      flat_map (fun kv : option skey * item =>
        match kv with
        | (k, v) =>
            match k with
            | Some k' =>
                match v with
                | ITable c' m' => render_table c' m' k' None
                | IAoT l _ _ _ =>                            (* container.py:552-562 _render_aot *)
                    flat_map (fun p => match p with (c', m') => render_aot_table c' m' (k_orig k') end) l
                | _ => simple_text k (item_trivia v) (item_string v) None
                end
            | None => item_string v
            end
        end) body
  end
(** container.py:495-550 [_render_table] *)
with render_table (c : container) (m : tmeta) (k : skey) (prefix : option str) {struct c} : str :=
  match c with
  | Cont body cm pd tks dict =>
      let _key := match tm_disp m with Some d => d | None => prefixed prefix (k_orig k) end in
      let t := tm_trivia m in
      (if negb (table_is_super c m)
          || (existsb (fun kv : option skey * item =>
                 match kv with (_, v) => negb (is_table_or_aot v || is_wsitem v || is_null v) end) body
              && negb (k_dotted k))
       then header (if tm_aot m then [chLBR; chLBR] else [chLBR]) _key
                   (if tm_aot m then [chRBR; chRBR] else [chRBR]) t
            ++ (if negb (inb chLF (tr_trail t)) && Nat.ltb 0 (List.length dict) then [chLF] else [])
       else if str_eqb (tr_indent t) [chLF] then tr_indent t else [])
      ++ flat_map (fun kv : option skey * item =>
        match kv with
        | (ok, v) =>
            match ok with
            | Some k' =>
                match v with
                | ITable c' m' =>
                    if table_is_super c' m'
                    then if k_dotted k' && negb (k_dotted k)
                         then render_table c' m' k' None
                         else render_table c' m' k' (Some _key)
                    else render_table c' m' k' (Some _key)
                | IAoT l _ _ _ =>
                    flat_map (fun p => match p with (c', m') =>
                       render_aot_table c' m' (_key ++ [chDOT] ++ k_orig k') end) l
                | _ => simple_text ok (item_trivia v) (item_string v)
                                   (if k_dotted k then Some _key else None)
                end
            | None => item_string v
            end
        end) body
  end
(** container.py:564-594 [_render_aot_table] *)
with render_aot_table (c : container) (m : tmeta) (prefix : str) {struct c} : str :=
  match c with
  | Cont body cm pd tks dict =>
      header [chLBR; chLBR] prefix [chRBR; chRBR] (tm_trivia m)
      ++ flat_map (fun kv : option skey * item =>
        match kv with
        | (ok, v) =>
            match ok with
            | Some k' =>
                match v with
                | ITable c' m' =>
                    if table_is_super c' m'
                    then if k_dotted k' then render_table c' m' k' None
                         else render_table c' m' k' (Some prefix)
                    else render_table c' m' k' (Some prefix)
                | IAoT l _ _ _ =>
                    flat_map (fun p => match p with (c', m') =>
                       render_aot_table c' m' (prefix ++ [chDOT] ++ k_orig k') end) l
                | _ => simple_text ok (item_trivia v) (item_string v) None
                end
            | None => item_string v
            end
        end) body
  end.

(** items.py:1821-1832 [String.from_raw] (with [escape=True]) *)
Definition string_from_raw (value : str) (t : strtype) : res scalar :=
  if existsb (fun q => substr q value) (invalid_sequences t) then Err InvalidStringE
  else let o := match escaped_sequences t with
                | [] => value
                | esc => escape_string esc value
                end in
       Ok (SStr t value o).

(** items.py:607-608: the [_sign] attribute of an Integer: [^[+\-]\d+$]. *)
Definition int_sign (raw : str) : bool :=
  match raw with
  | c :: ((_ :: _) as r) => ((c =? chPLUS) || (c =? chMINUS)) && forallb is_uni_digit r
  | _ => false
  end.
(** items.py:630-636 [Integer._new]: the raw text of the result. *)
Definition int_new_raw (raw : str) (result : Z) : str :=
  let r := dec_Z result in
  if int_sign raw then (if (0 <=? result)%Z then [chPLUS] else [chMINUS]) ++ r else r.

(** The concrete-syntax line of a key/value entry. *)
Definition is_scalar (i : item) : bool := match i with IVal _ _ => true | _ => false end.
