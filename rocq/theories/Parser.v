(** Parser: model of tomlkit/parser.py.

    Recursion and the loops that are not simple scans are bounded by [fuel];
    running out is the error [FuelE] (excluded by a theorem).  [strict] runs are
    a proof device: they raise [LossyE n] in the branches of the parser that do
    not keep the text; the Python code is [strict = false]. *)
From Verif Require Import Base Source Utils Items Container Arrays.

(** * Scans *)

(** parser.py:240-299 [_parse_comment_trail].  The loops are written as scans.
    [trail = self.extract()] is unconditional here: when the guard of line 296 is
    false the extracted text is empty. *)
Definition is_blank (c : char) : bool := (c =? chSP) || (c =? chTAB) || (c =? chCR).
(** parser.py:267 *)
Definition bad_comment_char (c : char) : bool := (c =? 127) || ((c <=? 31) && negb (c =? chTAB)).

Definition parse_trail : M str :=
  adv_whileM is_spaces ;;;
  c <- current ;;
  (if c =? chCR then incM else ret true) ;;;
  c <- current ;;
  (if c =? chLF then incM else ret true) ;;;
  extractM.

Definition parse_comment_trail (with_trail : bool) : M (str * str * str) :=
  e <- endM ;;
  if e then ret ([], [], [])
  else
    mark ;;;
    adv_whileM is_blank ;;;
    e <- endM ;;
    c <- current ;;
    cc <- (if e || (c =? chLF) then ret ([], [])
           else if c =? chHASH then
             cws <- extractM ;;
             mark ;;;
             incM ;;;
             adv_whileM (fun c => negb (is_nl c) && negb (bad_comment_char c)) ;;;
             e <- endM ;;
             c <- current ;;
             (if e || is_nl c then ret tt else raise (KInvalidControl c)) ;;;
             comment <- extractM ;;
             mark ;;;
             ret (cws, comment)
           else raise (KUnexpectedChar c)) ;;
    let '(cws, comment) := cc in
    trail <- (if with_trail then parse_trail else ret []) ;;
    ret (cws, comment, trail).

(** * Strings *)

(** parser.py:1106-1141 [_peek_unicode]; [None] when no valid value. *)
Definition peek_unicode (is_long : bool) : M (option (char * str)) :=
  restoring_all (
    c <- current ;;
    if negb ((c =? 117) || (c =? 85)) then raise KInternal
    else
      incM ;;;
      mark ;;;
      ok <- inc_nM (if is_long then 8 else 4) ;;
      if negb ok then ret None
      else
        ex <- extractM ;;
        let bad := match ex with
                   | a :: b :: _ => (lower_c a =? 100) && negb ((48 <=? b) && (b <=? 55))
                   | _ => false
                   end in
        if bad then ret None
        else match py_int ex 16 with
             | Some z => if ((0 <=? z) && (z <=? 1114111))%Z then ret (Some (Z.to_N z, ex)) else ret None
             | None => ret None
             end).

(** parser.py:739-744: consume whitespace; running into the end is an error.
    Structural in the remaining text. *)
Definition skip_ws_exn : M str :=
  fun st =>
    let tmp := take_while is_ws (p_rest st) in
    let st' := adv_while is_ws st in
    if at_end st' && negb (at_end st) then (Err (parse_error KUnexpectedEof st'), st')
    else (Ok tmp, st').

(** parser.py:729-772 [_parse_escaped_char] *)
Definition parse_escaped_char (multiline : bool) : M str :=
  c <- current ;;
  if multiline && is_ws c then
    tmp <- skip_ws_exn ;;
    if inb chLF tmp then ret [] else (c <- current ;; raise (KInvalidCharInString c))
  else match escaped_value c with
       | Some v => inc_exn KUnexpectedEof ;;; ret [v]
       | None =>
           if (c =? 117) || (c =? 85) then
             u <- peek_unicode (c =? 85) ;;
             match u with
             | Some (v, ex) => inc_nM (S (List.length ex)) ;;; ret [v]
             | None => raise KInvalidUnicode
             end
           else raise (KInvalidCharInString c)
       end.

(** parser.py:816-830: the control characters refused inside a string *)
Definition bad_string_char (multiline : bool) (c : char) : bool :=
  (c =? 127) || ((c <=? 31) && negb (c =? chTAB)
                 && negb (multiline && ((c =? chLF) || (c =? chCR)))).

(** parser.py:814-885: the loop of [_parse_string]; [value] so far, [escaped]. *)
Fixpoint string_loop (fuel : nat) (delim : strtype) (value : str) (escaped : bool) {struct fuel} : M scalar :=
  match fuel with
  | O => raise_exn FuelE
  | S n =>
      c <- current ;;
      if negb escaped && bad_string_char (st_multiline delim) c then raise (KInvalidControl c)
      else if negb escaped && (c =? st_unit delim) then
        original <- extractM ;;
        if st_multiline delim then
          st <- get ;;
          let close := take_while (fun x => x =? st_unit delim) (p_rest st) in
          adv_whileM (fun x => x =? st_unit delim) ;;;
          let k := List.length close in
          if Nat.ltb k 3 then string_loop n delim (value ++ close) false
          else if Nat.eqb k 3 then ret (SStr delim value original)
          else if Nat.leb 6 k then (c <- current ;; raise (KInvalidCharInString c))
          else ret (SStr delim (value ++ firstn (k - 3) close) (original ++ firstn (k - 3) close))
        else
          incM ;;; ret (SStr delim value original)
      else if st_basic delim && escaped then
        v <- parse_escaped_char (st_multiline delim) ;;
        string_loop n delim (value ++ v) false
      else if st_basic delim && (c =? chBSL) then
        inc_exn KUnexpectedEof ;;; string_loop n delim value true
      else
        inc_exn KUnexpectedEof ;;; string_loop n delim (value ++ [c]) escaped
  end.

(** parser.py:801-812: a newline just after the opening delimiter is trimmed *)
Definition skip_first_newline : M unit :=
  c <- current ;;
  if c =? chLF then inc_exn KUnexpectedEof
  else
    two <- restoring (b <- incM ;; c2 <- current ;; ret (if b then Some c2 else None)) ;;
    if (c =? chCR) && (match two with Some c2 => c2 =? chLF | None => false end)
    then inc_n_exn 2 KUnexpectedEof else ret tt.

(** parser.py:774-885 [_parse_string] *)
Definition parse_string (fuel : nat) (delim : strtype) : M scalar :=
  c <- current ;;
  if negb (c =? st_unit delim) then raise KInternal
  else
    inc_exn KUnexpectedEof ;;;
    c <- current ;;
    d <- (if c =? st_unit delim then
            b <- incM ;;
            c <- current ;;
            if negb b || negb (c =? st_unit delim) then ret None
            else inc_exn KUnexpectedEof ;;; ret (Some (st_toggle delim))
          else ret (Some delim)) ;;
    match d with
    | None => ret (SStr delim [] [])
    | Some delim =>
        mark ;;;
        (if st_multiline delim then skip_first_newline else ret tt) ;;;
        string_loop fuel delim [] false
    end.

(** * Keys *)

Definition is_quote (c : char) : bool := (c =? chDQ) || (c =? chSQ).

(** parser.py:348-416 [_parse_key], [_parse_quoted_key], [_parse_bare_key] *)
Fixpoint parse_key (fuel : nat) {struct fuel} : M key :=
  match fuel with
  | O => raise_exn FuelE
  | S n =>
      mark ;;;
      adv_whileM is_spaces ;;;
      c <- current ;;
      k <- (if is_quote c then
              lead <- extractM ;;
              let t := if c =? chDQ then KTBasic else KTLiteral in
              s <- parse_string n (if c =? chDQ then SLB else SLL) ;;
              match s with
              | SStr d v o =>
                  if st_multiline d then raise (KUnexpectedChar (st_unit d))
                  else
                    mark ;;;
                    adv_whileM is_spaces ;;;
                    tr <- extractM ;;
                    ret (mkSKey v t [] (lead ++ scalar_string s ++ tr) false)
              | _ => raise KInternal
              end
            else
              adv_whileM (fun c => is_bare_key_char c || is_spaces c) ;;;
              original <- extractM ;;
              let key := strip original in
              match key with
              | [] => raise KEmptyKey
              | _ => if inb chSP key then raise KGeneric
                     else ret (mkSKey key KTBare [] original false)
              end) ;;
      c <- current ;;
      if c =? chDOT then
        incM ;;;
        k2 <- parse_key n ;;
        ret (key_concat (KSingle k) k2)
      else ret (KSingle k)
  end.

(** parser.py:315-323: the separator loop; structural in the remaining text. *)
Fixpoint sep_loop (rest pre : str) (mk : nat) (found : bool) {struct rest} : res bool * pst :=
  match rest with
  | [] => (Ok found, mkSt pre [] mk)
  | c :: r =>
      if is_kv_sep c then
        match r with
        | [] => (Ok found, mkSt (pre ++ [c]) [] mk)
        | d :: _ =>
            if d =? chEQ then
              if found then let st := mkSt (pre ++ [c]) r mk in (Err (parse_error (KUnexpectedChar chEQ) st), st)
              else sep_loop r (pre ++ [c]) mk true
            else sep_loop r (pre ++ [c]) mk found
        end
      else (Ok found, mkSt pre rest mk)
  end.
Definition parse_sep : M str :=
  mark ;;;
  c <- current ;;
  found <- (fun st => sep_loop (p_rest st) (p_pre st) (p_mark st) (c =? chEQ)) ;;
  c <- current ;;
  if negb found then raise (KUnexpectedChar c) else extractM.

(** * Numbers, dates *)

(** parser.py:688-701: drop underscores that stand between two digits. *)
Definition base_digit (base : N) (c : char) : bool := match digit_in base c with Some _ => true | None => false end.
Fixpoint drop_underscores (base : N) (prev : bool) (s : str) : str :=
  match s with
  | [] => []
  | c :: s' =>
      if (c =? chUND) && prev && (match s' with d :: _ => base_digit base d | [] => false end)
      then drop_underscores base false s'
      else c :: drop_underscores base (base_digit base c) s'
  end.

Definition starts_any (ps : list str) (s : str) : bool := existsb (fun p => startswith p s) ps.

(** parser.py:670-719 [_parse_number] *)
Definition parse_number (raw0 : str) : option scalar :=
  let '(sign, raw) := match raw0 with
                      | c :: r => if (c =? chPLUS) || (c =? chMINUS) then ([c], r) else ([], raw0)
                      | [] => ([], [])
                      end in
  let signed := negb (str_eqb sign []) in
  if Nat.ltb 1 (List.length raw)
     && ((startswith (L "0") raw && negb (starts_any [L "0."; L "0o"; L "0x"; L "0b"; L "0e"] raw))
         || (signed && startswith (L ".") raw))
  then None
  else if starts_any [L "0o"; L "0x"; L "0b"] raw && signed then None
  else
    let base := if startswith (L "0b") raw then 2
                else if startswith (L "0o") raw then 8
                else if startswith (L "0x") raw then 16 else 10 in
    let clean := lower (drop_underscores base false raw) in
    if inb chUND clean then None
    else if endswith (L ".") clean
            || (negb (startswith (L "0x") clean) && endswith (L ".") (before_char 101 clean))
    then None
    else match py_int (sign ++ clean) base with
         | Some z => Some (SInt z (sign ++ raw))
         | None => match py_float (sign ++ clean) with
                   | Some f => Some (SFloat f (sign ++ raw))
                   | None => None
                   end
         end.

(** parser.py:1088-1104 [_peek] *)
Fixpoint peek_loop (n : nat) (rest : str) : str :=
  match n, rest with
  | S n', c :: r => if is_val_delim c || (c =? chNUL) then [] else c :: peek_loop n' r
  | _, _ => []
  end.
Definition peek (n : nat) : M str := fun st => (Ok (peek_loop n (p_rest st)), st).

Definition special_floats : list str :=
  [L "+inf"; L "-inf"; L "inf"; L "+nan"; L "-nan"; L "nan"].

Definition is_date_stop (c : char) : bool := is_val_delim c && negb (c =? chSP).

(** Turn the exceptions of [parse_rfc3339] into those of parser.py:483,515,531 *)
Definition value_error (k : pkind) {A} (r : res A) : M A :=
  match r with
  | Ok a => ret a
  | Err ValueErrorE => raise k
  | Err e => raise_exn e
  end.

Definition scalar_item (v : scalar) : item := IVal v default_trivia.

(** parser.py:457-538: a value starting with a digit *)
Definition parse_digit_value : M item :=
  adv_whileM (fun c => negb (is_val_delim c)) ;;;
  raw <- extractM ;;
  match loose_match raw with
  | Some (true, true) =>
      dt <- value_error KInvalidDateTime (parse_rfc3339 raw) ;;
      match dt with
      | RDateTime d => ret (scalar_item (SDateTime d raw))
      | _ => raise KInternal                                (* AssertionError; dead *)
      end
  | Some (true, false) =>
      dt <- value_error KInvalidDate (parse_rfc3339 raw) ;;
      match dt with
      | RDate d =>
          mark ;;;
          adv_whileM (fun c => negb (is_date_stop c)) ;;;
          time_raw <- extractM ;;
          let time_part := rstrip time_raw in
          let t := mkTrivia [] (skipn (List.length time_part) time_raw) [] [chLF] in
          match time_part with
          | [] => ret (IVal (SDate d raw) t)
          | _ => dt <- value_error KInvalidDate (parse_rfc3339 (raw ++ time_part)) ;;
                 match dt with
                 | RDateTime d => ret (IVal (SDateTime d (raw ++ time_part)) t)
                 | _ => raise KInternal                     (* AssertionError; dead *)
                 end
          end
      | _ => raise KInternal                                (* dead *)
      end
  | Some (false, true) =>
      dt <- value_error KInvalidTime (parse_rfc3339 raw) ;;
      match dt with
      | RTime d => ret (scalar_item (STime d raw))
      | _ => raise KInternal                                (* AssertionError; dead *)
      end
  | _ => match parse_number raw with
         | Some v => ret (scalar_item v)
         | None => raise KInvalidNumber
         end
  end.

(** parser.py:446-456: a value starting with a sign, or inf/nan *)
Definition parse_signed_value : M item :=
  adv_whileM (fun c => negb (is_val_delim c)) ;;;
  raw <- extractM ;;
  match parse_number raw with
  | Some v => ret (scalar_item v)
  | None => raise KInvalidNumber
  end.

(** parser.py:548-557 [_parse_bool] *)
Fixpoint consume_all (s : str) : M unit :=
  match s with [] => ret tt | c :: r => consume1 c ;;; consume_all r end.
Definition parse_bool (b : bool) : M item :=
  restore_on_err (consume_all (if b then L "true" else L "false") ;;; ret (scalar_item (SBool b))).

(** * Values *)

Definition str_item (v : scalar) : item := IVal v default_trivia.

(** text between index [a] and the current position: [self._src[a : self._idx]] *)
Definition since (a : nat) : M str := fun st => (Ok (skipn a (p_pre st)), st).
Definition idxM : M nat := fun st => (Ok (idx st), st).

(** [strict] guard *)
Definition lossy_if (b : bool) (n : nat) : M unit := if b then raise_exn (LossyE n) else ret tt.
Definition nonempty (s : str) : bool := match s with [] => false | _ => true end.

(** Errors of [Container.append] raised inside the parser as they are *)
Definition add_elem (strict : bool) (c : container) (k : option key) (i : item) : M container :=
  lift (cappend strict c k i).

(** parser.py:301-346 [_parse_key_value], given a value parser *)
Definition key_value_with (strict : bool) (pv : M item) (fuel : nat) (parse_comment : bool) : M (key * item) :=
  mark ;;;
  adv_whileM is_spaces ;;;
  indent <- extractM ;;
  key <- parse_key fuel ;;
  sep <- parse_sep ;;
  val <- pv ;;
  let t := item_trivia val in
  t' <- (if parse_comment then
           ct <- parse_comment_trail true ;;
           let '(cws, comment, trail) := ct in
           lossy_if (strict && nonempty (tr_cws t) && nonempty cws) 2 ;;;
           ret (mkTrivia indent (if nonempty (tr_cws t) then tr_cws t else cws) comment trail)
         else
           lossy_if (strict && nonempty (tr_cws t)) 2 ;;;
           ret (mkTrivia indent (tr_cws t) (tr_comment t) [])) ;;
  ret (key_set_sep sep key, set_trivia t' val).

(** parser.py:418-668 [_parse_value], [_parse_array], [_parse_inline_table] *)
Fixpoint parse_value (strict : bool) (fuel : nat) {struct fuel} : M item :=
  match fuel with
  | O => raise_exn FuelE
  | S n =>
      mark ;;;
      c <- current ;;
      if c =? chDQ then v <- restore_on_err (parse_string n SLB) ;; ret (str_item v)
      else if c =? chSQ then v <- restore_on_err (parse_string n SLL) ;; ret (str_item v)
      else if c =? 116 then parse_bool true
      else if c =? 102 then parse_bool false
      else if c =? chLBR then inc_exn KUnexpectedEof ;;; array_loop strict n [] None
      else if c =? chLCB then
        inc_exn KUnexpectedEof ;;; inline_loop strict n (empty_cont true) None
      else
        p <- peek 4 ;;
        if (c =? chPLUS) || (c =? chMINUS) || existsb (str_eqb p) special_floats then parse_signed_value
        else if is_ascii_digit c then parse_digit_value
        else raise (KUnexpectedChar c)
  end
(** parser.py:565-615; [prev] is [prev_value] (None / True / False) *)
with array_loop (strict : bool) (fuel : nat) (elems : list aelem) (prev : option bool) {struct fuel} : M item :=
  match fuel with
  | O => raise_exn FuelE
  | S n =>
      a <- idxM ;;
      adv_whileM is_ws ;;;
      indent <- since a ;;
      c <- current ;;
      if existsb is_nl indent then array_loop strict n (elems ++ [EWs indent]) prev
      else if c =? chHASH then
        ct <- parse_comment_trail false ;;
        let '(cws, comment, trail) := ct in
        array_loop strict n (elems ++ [EComment (mkTrivia indent cws comment trail)]) prev
      else if nonempty indent then array_loop strict n (elems ++ [EWs indent]) prev
      else
        let next : M item :=
          c <- current ;;
          if match prev with Some true => c =? chCOMMA | _ => false end then
            inc_exn KUnexpectedEof ;;; array_loop strict n (elems ++ [EWs [chCOMMA]]) (Some false)
          else if c =? chRBR then
            incM ;;; ret (IArray (group_values elems) default_trivia false)
          else raise (KUnexpectedChar c) in
        match prev with
        | Some true => next
        | _ =>
            fun st =>
              match parse_value strict n st with
              | (Ok v, st') =>
                  if strict && nonempty (tr_cws (item_trivia v)) then (Err (LossyE 2), st')
                  else array_loop strict n (elems ++ [EVal v]) (Some true) st'
              | (Err (ParseErr (KUnexpectedChar _) _ _), st') =>
                  if strict && negb (Nat.eqb (idx st') (idx st)) && (cur st' =? chRBR) then (Err (LossyE 4), st')
                  else next st'
              | (Err e, st') => (Err e, st')
              end
        end
  end
(** parser.py:621-668; [tc] is [trailing_comma] (None / False / True) *)
with inline_loop (strict : bool) (fuel : nat) (elems : container) (tc : option bool) {struct fuel} : M item :=
  match fuel with
  | O => raise_exn FuelE
  | S n =>
      a <- idxM ;;
      adv_whileM is_spaces ;;;
      raw <- since a ;;
      elems <- (if nonempty raw then add_elem strict elems None (IWs raw false) else ret elems) ;;
      c <- current ;;
      if (match tc with Some true => false | _ => true end) && (c =? chRCB) then
        incM ;;; ret (IInline elems default_trivia false)
      else if (match tc with
               | Some false => true
               | None => c =? chCOMMA
               | Some true => (c =? chRCB) || (c =? chCOMMA)
               end) then raise (KUnexpectedChar c)
      else
        kv <- key_value_with strict (parse_value strict n) n false ;;
        elems <- add_elem strict elems (Some (fst kv)) (snd kv) ;;
        a <- idxM ;;
        adv_whileM is_spaces ;;;
        raw <- since a ;;
        elems <- (if nonempty raw then add_elem strict elems None (IWs raw false) else ret elems) ;;
        c <- current ;;
        if c =? chCOMMA then
          lossy_if (strict && nonempty raw) 3 ;;;
          inc_exn KUnexpectedEof ;;; inline_loop strict n elems (Some true)
        else inline_loop strict n elems (Some false)
  end.

(** parser.py:301-346 *)
Definition parse_key_value (strict : bool) (fuel : nat) (parse_comment : bool) : M (key * item) :=
  key_value_with strict (parse_value strict fuel) fuel parse_comment.

(** * Items *)

(** Outcome of the scan at the beginning of [_parse_item]. *)
Inductive head := HItem (i : item) | HTable | HKeyValue.

(** parser.py:209-236 *)
Definition item_head : M head :=
  mark ;;;
  adv_whileM is_blank ;;;
  e <- endM ;;
  ws <- extractM ;;
  c <- current ;;
  if e && nonempty ws then ret (HItem (IWs ws false))
  else if c =? chLF then incM ;;; ws <- extractM ;; ret (HItem (IWs ws false))
  else if c =? chHASH then
    ct <- parse_comment_trail true ;;
    let '(cws, comment, trail) := ct in
    ret (HItem (IComment (mkTrivia ws cws comment trail)))
  else if c =? chLBR then ret HTable
  else ret HKeyValue.

(** parser.py:204-238 [_parse_item] *)
Definition parse_item (strict : bool) (fuel : nat) : M (option (option key * item)) :=
  fun st =>
    match restore_on_err item_head st with
    | (Ok (HItem i), st1) => (Ok (Some (None, i)), st1)
    | (Ok HTable, st1) => (Ok None, st1)
    | (Ok HKeyValue, st1) =>
        (kv <- parse_key_value strict fuel true ;; ret (Some (Some (fst kv), snd kv)))
          (mkSt (p_pre st) (p_rest st) (p_mark st1))
    | (Err e, st1) => (Err e, st1)
    end.

(** parser.py:169-189 [_merge_ws]: the new container if merged *)
Definition merge_ws (i : item) (c : container) (st : pst) : option container :=
  let 'Cont body m p tks d := c in
  match i, rev body with
  | IWs s _, (k, IWs l _) :: r =>
      Some (Cont (rev r ++ [(k, IWs (skipn (idx st - (List.length l + List.length s)) (p_pre st)) false)]) m p tks d)
  | _, _ => None
  end.

(** parser.py:191-202 [_is_child] *)
Definition is_child (parent child : key) : bool :=
  let p := key_parts parent in
  let c := key_parts child in
  negb (skeys_eqb p c) && skeys_eqb p (firstn (List.length p) c).

(** parser.py:911-913, 1064-1067: [_parse_key], EmptyKeyError turned into
    EmptyTableNameError *)
Definition parse_table_key (fuel : nat) : M key :=
  fun st => match parse_key fuel st with
            | (Err (ParseErr KEmptyKey _ _), st') => (Err (parse_error KEmptyTableName st'), st')
            | r => r
            end.

(** parser.py:1042-1067 [_peek_table] *)
Definition peek_table (fuel : nat) : M (bool * key) :=
  restoring_all (
    c <- current ;;
    if negb (c =? chLBR) then raise KInternal
    else
      incM ;;;
      c <- current ;;
      is_aot <- (if c =? chLBR then incM ;;; ret true else ret false) ;;
      k <- parse_table_key fuel ;;
      ret (is_aot, k)).

(** * Tables *)

(** parser.py:957-996: wrap the innermost table into the super tables of a
    multi-part header (Python creates them outside in and fills the innermost
    last; the result is the same).  [rest] are the names below the first. *)
Definition mk_table (c : container) (t : trivia) (aot super : bool) (name disp : option str) : item :=
  ITable c (mkTM t aot (Some super) name disp).
(** What the innermost name refers to inside the table called [parent]. *)
Definition leaf_item (c : container) (m : tmeta) (is_aot : bool) (parent : str) : item :=
  if is_aot then IAoT [(c, m)] (Some parent) true aot_trivia else ITable c m.
Fixpoint nest (t : trivia) (rest : list skey) (parent : str) (c : container) (m : tmeta) (is_aot : bool) : container :=
  match rest with
  | [] => empty_cont true
  | [lst] => singleton lst (leaf_item c m is_aot parent)
  | nm :: r => singleton nm (mk_table (nest t r (k_key nm) c m is_aot) t false true (Some (k_key nm)) None)
  end.

Definition origs (l : list skey) : str := join [chDOT] (map k_orig l).
(** The header text under which an array-of-tables element will be rendered
    ([strict] only). *)
Definition rendered_name (ptext : option str) (parts : list skey) : str :=
  match ptext, parts with
  | None, _ => origs parts
  | Some p, [] => p
  | Some p, _ => p ++ [chDOT] ++ origs parts
  end.

Definition table_append_m (strict : bool) (c : container) (k : option key) (i : item) : M container :=
  lift (table_raw_append strict c k i).

(** parser.py:887-1040 [_parse_table].  [stack] is [_aot_stack], top first;
    [ptext] is the parent's header text ([strict] only). *)
Fixpoint parse_table (strict : bool) (fuel : nat) (parent : option key) (ptext : option str) (stack : list key)
         {struct fuel} : M (key * item) :=
  match fuel with
  | O => raise_exn FuelE
  | S n =>
      c <- current ;;
      if negb (c =? chLBR) then raise KInternal
      else
        indent <- extractM ;;
        incM ;;;
        e <- endM ;;
        if e then raise KUnexpectedEof
        else
          c <- current ;;
          is_aot <- (if c =? chLBR then
                       b <- incM ;; (if b then ret true else raise KUnexpectedEof)
                     else ret false) ;;
          key <- parse_table_key n ;;
          e <- endM ;;
          c <- current ;;
          if e then raise KUnexpectedEof
          else if negb (c =? chRBR) then raise (KUnexpectedChar c)
          else
            let full := key_set_sep [] key in
            let all_parts := key_parts full in
            if existsb (fun p => match k_t p with KTBare => inb chSP (strip (k_key p)) | _ => false end) all_parts
            then raise KGeneric
            else
              let plen := match parent with Some p => List.length (key_parts p) | None => O end in
              let parts := skipn plen all_parts in
              incM ;;;
              c <- current ;;
              lossy_if (strict && is_aot && negb (c =? chRBR)) 1 ;;;
              (if is_aot then incM else ret true) ;;;
              ct <- parse_comment_trail true ;;
              let '(cws, comment, trail) := ct in
              let t := mkTrivia indent cws comment trail in
              lossy_if (strict && is_aot && negb (str_eqb (key_string full) (rendered_name ptext parts))) 5 ;;;
              let in_stack := is_aot && match parts with
                                        | p :: _ => existsb (key_eqb (KSingle p)) stack
                                        | [] => false
                                        end in
              lossy_if (strict && Nat.ltb 1 (List.length parts) && in_stack) 9 ;;;
              c <- table_loop strict n full stack (empty_cont true) ;;
              lift (validate_all c) ;;;
              lossy_if (strict && negb (inb chLF trail) && cont_nonempty c) 8 ;;;
              match parts with
              | p :: ((_ :: _) as rest) =>
                  let lname := k_key (last rest p) in
                  let m := mkTM t is_aot (Some false) (Some lname) (Some (key_string full)) in
                  ret (KSingle p,
                       ITable (nest t rest (k_key p) c m is_aot)
                              (mkTM (mkTrivia [] cws comment trail) in_stack (Some true) (Some (k_key p)) None))
              | _ =>
                  let name := match parts with p :: _ => k_key p | [] => join [chDOT] (map k_key all_parts) end in
                  let m := mkTM t is_aot (Some false) (Some name) (Some (key_string full)) in
                  let rkey := match parts with p :: _ => KSingle p | [] => full end in
                  if is_aot && match stack with top :: _ => negb (key_eqb full top) | [] => true end
                  then aot <- parse_aot strict n (c, m) full stack ;; ret (rkey, aot)
                  else ret (rkey, ITable c m)
              end
  end
(** parser.py:1001-1032: the body of a table *)
with table_loop (strict : bool) (fuel : nat) (full : key) (stack : list key) (c : container) {struct fuel} : M container :=
  match fuel with
  | O => raise_exn FuelE
  | S n =>
      e <- endM ;;
      if e then ret c
      else
        it <- parse_item strict n ;;
        match it with
        | Some (k, i) =>
            st <- get ;;
            match merge_ws i c st with
            | Some c' => table_loop strict n full stack c'
            | None => c' <- table_append_m strict c k i ;; table_loop strict n full stack c'
            end
        | None =>
            ch <- current ;;
            if ch =? chLBR then
              pk <- peek_table n ;;
              if is_child full (snd pk) then
                kt <- parse_table strict n (Some full) (Some (key_string full)) stack ;;
                c' <- table_append_m strict c (Some (fst kt)) (snd kt) ;;
                siblings strict n full stack c'
              else ret c
            else raise KInternal
        end
  end
(** parser.py:1017-1025: further children of the same table *)
with siblings (strict : bool) (fuel : nat) (full : key) (stack : list key) (c : container) {struct fuel} : M container :=
  match fuel with
  | O => raise_exn FuelE
  | S n =>
      e <- endM ;;
      if e then ret c
      else
        pk <- peek_table n ;;
        if is_child full (snd pk) then
          kt <- parse_table strict n (Some full) (Some (key_string full)) stack ;;
          c' <- table_append_m strict c (Some (fst kt)) (snd kt) ;;
          siblings strict n full stack c'
        else ret c
  end
(** parser.py:1069-1086 [_parse_aot] *)
with parse_aot (strict : bool) (fuel : nat) (first : container * tmeta) (name : key) (stack : list key)
     {struct fuel} : M item :=
  match fuel with
  | O => raise_exn FuelE
  | S n =>
      l <- aot_loop strict n [first] name (name :: stack) ;;
      ret (aot_make l None true)
  end
with aot_loop (strict : bool) (fuel : nat) (payload : list (container * tmeta)) (name : key) (stack : list key)
     {struct fuel} : M (list (container * tmeta)) :=
  match fuel with
  | O => raise_exn FuelE
  | S n =>
      e <- endM ;;
      if e then ret payload
      else
        pk <- peek_table n ;;
        if fst pk && key_eqb (snd pk) name then
          kt <- parse_table strict n (Some name) (Some (key_string name)) stack ;;
          match snd kt with
          | ITable c m => aot_loop strict n (payload ++ [(c, m)]) name stack
          | _ => raise KInternal                            (* dead *)
          end
        else ret payload
  end.

(** * Documents *)

(** parser.py:146-149, 160-163: exceptions of [body.append] become ParseError *)
Definition wrap_append (r : res container) : M container :=
  match r with
  | Ok c => ret c
  | Err (LossyE n) => raise_exn (LossyE n)
  | Err UnmodelledE => raise_exn UnmodelledE
  | Err FuelE => raise_exn FuelE
  | Err _ => raise KGeneric
  end.

(** parser.py:133-151 *)
Fixpoint body_loop (strict : bool) (fuel : nat) (c : container) {struct fuel} : M container :=
  match fuel with
  | O => raise_exn FuelE
  | S n =>
      e <- endM ;;
      ch <- current ;;
      if e || (ch =? chLBR) then ret c
      else
        it <- parse_item strict n ;;
        match it with
        | None => ret c
        | Some (k, i) =>
            st <- get ;;
            match (if match k with Some k => key_is_multi k | None => false end then None else merge_ws i c st) with
            | Some c' => mark ;;; body_loop strict n c'
            | None => c' <- wrap_append (cappend strict c k i) ;;
                      mark ;;; body_loop strict n c'
            end
        end
  end.

(** parser.py:153-163.  The branch at 155-158 is kept although [_parse_table]
    called with an empty stack never returns a bare AoT element. *)
Fixpoint tables_loop (strict : bool) (fuel : nat) (c : container) {struct fuel} : M container :=
  match fuel with
  | O => raise_exn FuelE
  | S n =>
      e <- endM ;;
      if e then ret c
      else
        kt <- parse_table strict n None None [] ;;
        v <- (match snd kt with
              | ITable tc m => if tm_aot m then parse_aot strict n (tc, m) (fst kt) [] else ret (snd kt)
              | i => ret i
              end) ;;
        c' <- wrap_append (cappend strict c (Some (fst kt)) v) ;;
        tables_loop strict n c'
  end.

(** container.py:87-95 [parsing] *)
Fixpoint parsing_item (b : bool) (i : item) : item :=
  match i with
  | ITable c m => ITable (parsing_cont b c) m
  | IAoT l n p t => IAoT (map (fun x => match x with (c, m) => (parsing_cont b c, m) end) l) n p t
  | _ => i
  end
with parsing_cont (b : bool) (c : container) : container :=
  match c with
  | Cont body m _ tks d =>
      Cont (map (fun kv : option skey * item => match kv with (k, v) => (k, parsing_item b v) end) body) m b tks d
  end.

(** Enough fuel for a text of this length. *)
Definition parse_fuel (s : str) : nat := (4 * List.length s + 16)%nat.

(** parser.py:129-167 [Parser.parse] *)
Definition parse_doc (strict : bool) (fuel : nat) : M container :=
  c <- body_loop strict fuel (empty_cont true) ;;
  c <- tables_loop strict fuel c ;;
  ret (parsing_cont false c).
Definition parse_gen (strict : bool) (s : str) : res container :=
  fst (parse_doc strict (parse_fuel s) (start s)).
(** api.py:45, 84-88: [tomlkit.parse(s)] *)
Definition parse (s : str) : res container := parse_gen false s.

(** api.py:267-284 [tomlkit.value(s)] *)
Definition value_of (s : str) : res item :=
  fst ((v <- parse_value false (parse_fuel s) ;;
        e <- endM ;;
        c <- current ;;
        if e then ret v else raise (KUnexpectedChar c)) (start s)).
