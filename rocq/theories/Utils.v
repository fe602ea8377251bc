(** Utils: model of tomlkit/_utils.py and of the Python conversions [int()] and
    [float()] used by the parser. *)
From Verif Require Import Base.

(** * Escaping *)

(** Python slice [s[a:b]] for non-negative bounds. *)
Definition slice (a b : nat) (s : str) : str := firstn (b - a) (skipn a s).

(** _utils.py:103 CONTROL_CHARS as one-character strings. *)
Definition control_chars : list str :=
  map (fun n => [N.of_nat n]) (seq 0 32) ++ [[127]].

(** _utils.py:104-112 [_escaped]: the character after a backslash to its value. *)
Definition escaped_value (c : char) : option char :=
  if c =? 98 then Some 8          (* b *)
  else if c =? 116 then Some 9    (* t *)
  else if c =? 110 then Some 10   (* n *)
  else if c =? 102 then Some 12   (* f *)
  else if c =? 114 then Some 13   (* r *)
  else if c =? 34 then Some 34    (* double quote *)
  else if c =? 92 then Some 92    (* backslash *)
  else None.

(** _utils.py:113-116 [_compact_escapes]: the inverse of [_escaped], plus the
    triple double quote. *)
Definition compact_escape (seq : str) : option str :=
  match seq with
  | [c] => if c =? 8 then Some [chBSL; 98]
           else if c =? 9 then Some [chBSL; 116]
           else if c =? 10 then Some [chBSL; 110]
           else if c =? 12 then Some [chBSL; 102]
           else if c =? 13 then Some [chBSL; 114]
           else if c =? 34 then Some [chBSL; 34]
           else if c =? 92 then Some [chBSL; 92]
           else None
  | [a; b; c] => if (a =? 34) && (b =? 34) && (c =? 34) then Some [34; 34; chBSL; 34] else None
  | _ => None
  end.

(** Lower-case hex text of [n], without leading zeros ([f"{n:x}"]). *)
Fixpoint hex_aux (fuel : nat) (n : N) (acc : str) : str :=
  match fuel with
  | O => acc
  | S f => if n <? 16 then hex_digit n :: acc
           else hex_aux f (n / 16) (hex_digit (n mod 16) :: acc)
  end.
Definition hex_N (n : N) : str := hex_aux (S (N.size_nat n)) n [].
(** [f"{n:04x}"]: padded to at least four digits. *)
Definition hex_04 (n : N) : str :=
  let h := hex_N n in repeat 48 (4 - List.length h) ++ h.

(** _utils.py:120-121 [_unicode_escape] *)
Definition unicode_escape (seq : str) : str :=
  flat_map (fun c => chBSL :: 117 :: hex_04 c) seq.

(** _utils.py:144: [_compact_escapes.get(seq) or _unicode_escape(seq)] *)
Definition esc_seq (seq : str) : str :=
  match compact_escape seq with Some r => r | None => unicode_escape seq end.

(** _utils.py:124-150 [escape_string].  [order] is the collection of escape
    sequences in the order in which the set is iterated (unspecified in Python:
    it depends on the hash seed).  State of the loop: index [i], [start], and the
    concatenation of [res]. *)
Record esc_st := mkEsc { e_i : nat; e_start : nat; e_res : str }.

(** _utils.py:130-134 [flush(inc)]: returns the text to append and the new start *)
Definition flush_text (s : str) (st : esc_st) : str :=
  if Nat.eqb (e_start st) (e_i st) then [] else slice (e_start st) (e_i st) s.

(** _utils.py:140-145 body of the [for seq in found_sequences] loop *)
Definition esc_step (s : str) (st : esc_st) (seq : str) : esc_st :=
  if startswith seq (skipn (e_i st) s)
  then mkEsc (e_i st + (List.length seq - 1))
             (e_i st + List.length seq)
             (e_res st ++ flush_text s st ++ esc_seq seq)
  else st.

(** _utils.py:139-146 the [while] loop; [fuel] bounds the number of iterations. *)
Fixpoint esc_while (fuel : nat) (found : list str) (s : str) (st : esc_st) : esc_st :=
  match fuel with
  | O => st
  | S f => if Nat.ltb (e_i st) (List.length s)
           then let st' := fold_left (esc_step s) found st in
                esc_while f found s (mkEsc (S (e_i st')) (e_start st') (e_res st'))
           else st
  end.

Definition escape_string (order : list str) (s : str) : str :=
  let found := filter (fun q => substr q s) order in
  let st := esc_while (List.length s) found s (mkEsc 0 0 []) in
  e_res st ++ flush_text s st.

(** _utils.py:117 [_basic_escapes] *)
Definition basic_escapes : list str := control_chars ++ [[chDQ]; [chBSL]].

(** * Python [int(s, base)] and [float(s)] *)

(** [_PyUnicode_TransformDecimalAndSpaceToASCII] *)
Definition to_ascii (c : char) : char :=
  if c <? 127 then c
  else if py_isspace c then chSP
  else match uni_digit c with Some d => 48 + d | None => 63 end.

Definition c_isspace (c : char) : bool := ((9 <=? c) && (c <=? 13)) || (c =? 32).

(** Value of a digit character (C locale letters allowed). *)
Definition digit_val (c : char) : option N :=
  if (48 <=? c) && (c <=? 57) then Some (c - 48)
  else if (97 <=? c) && (c <=? 122) then Some (c - 87)
  else if (65 <=? c) && (c <=? 90) then Some (c - 55)
  else None.

Definition digit_in (base : N) (c : char) : option N :=
  match digit_val c with Some d => if d <? base then Some d else None | None => None end.

(** Digits with single underscores between them. [last] = previous char was a digit. *)
Fixpoint int_digits (base : N) (s : str) (acc : N) (last : bool) : option N :=
  match s with
  | [] => if last then Some acc else None
  | c :: s' => if c =? chUND
               then if last then int_digits base s' acc false else None
               else match digit_in base c with
                    | Some d => int_digits base s' (acc * base + d) true
                    | None => None
                    end
  end.

(** CPython [PyLong_FromString] after the prefix letter of the base. *)
Definition int_unsigned (base : N) (s : str) : option N :=
  match s with
  | z :: p :: r =>
      if (z =? 48) && (((base =? 16) && ((p =? 120) || (p =? 88)))
                       || ((base =? 8) && ((p =? 111) || (p =? 79)))
                       || ((base =? 2) && ((p =? 98) || (p =? 66))))
      then int_digits base (match r with u :: r' => if u =? chUND then r' else r | [] => [] end) 0 false
      else int_digits base s 0 false
  | _ => int_digits base s 0 false
  end.

(** [int(s, base)]; [None] is ValueError.  Not modelled: the 4300-digit limit of
    recent CPython versions. *)
Definition py_int (s : str) (base : N) : option Z :=
  let s := rstrip_p c_isspace (lstrip_p c_isspace (map to_ascii s)) in
  match s with
  | c :: r => if c =? chMINUS then option_map (fun n => (- Z.of_N n)%Z) (int_unsigned base r)
              else if c =? chPLUS then option_map Z.of_N (int_unsigned base r)
              else option_map Z.of_N (int_unsigned base s)
  | [] => None
  end.

(** Float values: exact decimals [(-1)^neg * mant * 10^exp], infinities, NaN.
    IEEE rounding is not modelled. *)
Inductive fval := FDec (neg : bool) (mant : N) (exp : Z) | FInf (neg : bool) | FNan (neg : bool).

Definition all_digits (s : str) : bool := forallb is_ascii_digit s.
Definition dec_value (s : str) : N := fold_left (fun a c => a * 10 + (c - 48)) s 0.

(** Unsigned part of [float(s)], no underscores. *)
Definition float_unsigned (s : str) : option (bool -> fval) :=
  let l := lower s in
  if str_eqb l (L "inf") || str_eqb l (L "infinity") then Some FInf
  else if str_eqb l (L "nan") then Some FNan
  else
    let ip := take_while is_ascii_digit s in
    let r1 := drop_while is_ascii_digit s in
    let '(fp, r2) := match r1 with
                     | c :: r => if c =? chDOT then (take_while is_ascii_digit r, drop_while is_ascii_digit r)
                                 else ([], r1)
                     | [] => ([], r1)
                     end in
    if Nat.eqb (List.length ip + List.length fp) 0 then None
    else
      let mant := dec_value (ip ++ fp) in
      let e0 := (- Z.of_nat (List.length fp))%Z in
      match r2 with
      | [] => Some (fun n => FDec n mant e0)
      | c :: r =>
          if (c =? 101) || (c =? 69) then
            let '(eneg, ed) := match r with
                               | d :: r' => if d =? chMINUS then (true, r')
                                            else if d =? chPLUS then (false, r') else (false, r)
                               | [] => (false, [])
                               end in
            match ed with
            | [] => None
            | _ => if all_digits ed
                   then let ev := Z.of_N (dec_value ed) in
                        Some (fun n => FDec n mant (e0 + (if eneg then - ev else ev))%Z)
                   else None
            end
          else None
      end.

(** [float(s)]; [None] is ValueError.  Strings containing an underscore are
    rejected here; [_parse_number] never passes one. *)
Definition py_float (s : str) : option fval :=
  let s := rstrip_p c_isspace (lstrip_p c_isspace (map to_ascii s)) in
  match s with
  | c :: r => if c =? chMINUS then option_map (fun f => f true) (float_unsigned r)
              else if c =? chPLUS then option_map (fun f => f false) (float_unsigned r)
              else option_map (fun f => f false) (float_unsigned s)
  | [] => None
  end.

(** * Dates and times *)

Record date := mkDate { d_year : N; d_month : N; d_day : N }.
Record time := mkTime { t_hour : N; t_min : N; t_sec : N; t_us : N }.
(** [dt_off]: UTC offset in minutes, [None] for a naive datetime.  The tzinfo's
    display name is not modelled. *)
Record datetime := mkDT { dt_date : date; dt_time : time; dt_off : option Z }.

Inductive rfcval := RDateTime (d : datetime) | RDate (d : date) | RTime (t : time).

Definition is_leap (y : N) : bool :=
  (y mod 4 =? 0) && (negb (y mod 100 =? 0) || (y mod 400 =? 0)).
Definition days_in_month (y m : N) : N :=
  if m =? 2 then (if is_leap y then 29 else 28)
  else if (m =? 4) || (m =? 6) || (m =? 9) || (m =? 11) then 30 else 31.

Definition valid_date (d : date) : bool :=
  (1 <=? d_year d) && (d_year d <=? 9999) && (1 <=? d_month d) && (d_month d <=? 12)
  && (1 <=? d_day d) && (d_day d <=? days_in_month (d_year d) (d_month d)).
Definition valid_time (t : time) : bool :=
  (t_hour t <=? 23) && (t_min t <=? 59) && (t_sec t <=? 59) && (t_us t <=? 999999).

(** Constructors [datetime.date(...)], [datetime.time(...)], [datetime.datetime(...)]:
    ints that do not fit a C int raise OverflowError before range checks. *)
Definition py_date (d : date) : res date :=
  if 2147483647 <? d_year d then Err OverflowErrorE
  else if valid_date d then Ok d else Err ValueErrorE.
Definition py_time (t : time) : res time :=
  if valid_time t then Ok t else Err ValueErrorE.
Definition py_datetime (d : date) (t : time) (off : option Z) : res datetime :=
  if 2147483647 <? d_year d then Err OverflowErrorE
  else if valid_date d && valid_time t then Ok (mkDT d t off) else Err ValueErrorE.

(** Two-digit regexp pieces: read two characters, [ok] decides. *)
Definition two (ok : char -> char -> bool) (s : str) : option (N * str) :=
  match s with
  | a :: b :: r => if ok a b then Some ((a - 48) * 10 + (b - 48), r) else None
  | _ => None
  end.
Definition lit (c : char) (s : str) : option str :=
  match s with x :: r => if x =? c then Some r else None | [] => None end.
Definition between (lo hi c : char) : bool := (lo <=? c) && (c <=? hi).
(** [(0[1-9]|1[012])] *)
Definition re_month (a b : char) : bool := ((a =? 48) && between 49 57 b) || ((a =? 49) && between 48 50 b).
(** [(0[1-9]|[12][0-9]|3[01])] *)
Definition re_day (a b : char) : bool :=
  ((a =? 48) && between 49 57 b) || (between 49 50 a && between 48 57 b) || ((a =? 51) && between 48 49 b).
(** [([01][0-9]|2[0-3])] *)
Definition re_hour (a b : char) : bool := (between 48 49 a && between 48 57 b) || ((a =? 50) && between 48 51 b).
(** [([0-5][0-9])] *)
Definition re_min (a b : char) : bool := between 48 53 a && between 48 57 b.
(** [([0-5][0-9]|60)] *)
Definition re_sec (a b : char) : bool := re_min a b || ((a =? 54) && (b =? 48)).
(** [\d{2}] *)
Definition re_dd (a b : char) : bool := is_uni_digit a && is_uni_digit b.

Notation "'do' x <- m ; k" := (match m with Some x => k | None => None end)
  (at level 200, x pattern, right associativity).

(** [$]: end of string, or before one final newline. *)
Definition re_end (s : str) : bool := match s with [] => true | [c] => c =? chLF | _ => false end.

(** [([0-9]+)-MM-DD] *)
Definition m_date (okm okd : char -> char -> bool) (s : str) : option (date * str) :=
  let y := take_while is_ascii_digit s in
  let r := drop_while is_ascii_digit s in
  match y with
  | [] => None
  | _ => do r <- lit chMINUS r;
         do (m, r) <- two okm r;
         do r <- lit chMINUS r;
         do (d, r) <- two okd r;
         Some (mkDate (dec_value y) m d, r)
  end.

(** [HH:MM:SS(\.([0-9]+))?]; returns the fraction digits. *)
Definition m_time (okh okm oks : char -> char -> bool) (s : str) : option (N * N * N * option str * str) :=
  do (h, r) <- two okh s;
  do r <- lit chCOLON r;
  do (m, r) <- two okm r;
  do r <- lit chCOLON r;
  do (sec, r) <- two oks r;
  match r with
  | c :: r' => if c =? chDOT
               then match take_while is_ascii_digit r' with
                    | [] => Some (h, m, sec, None, r)
                    | f => Some (h, m, sec, Some f, drop_while is_ascii_digit r')
                    end
               else Some (h, m, sec, None, r)
  | [] => Some (h, m, sec, None, r)
  end.

(** [(([Zz])|([\+|\-]([01][0-9]|2[0-3]):([0-5][0-9])))?] — note the literal [|]
    accepted as a sign.  Returns the offset in minutes. *)
Definition m_tz (s : str) : option Z * str :=
  match s with
  | [] => (None, s)
  | c :: r =>
      if (c =? 90) || (c =? 122) then (Some 0%Z, r)
      else if (c =? chPLUS) || (c =? 124) || (c =? chMINUS)
      then match (do (h, r1) <- two re_hour r;
                  do r2 <- lit chCOLON r1;
                  do (m, r3) <- two re_min r2;
                  Some (Z.of_N (h * 60 + m), r3)) with
           | Some (o, r3) => (Some (if c =? chMINUS then (- o)%Z else o), r3)
           | None => (None, s)
           end
      else (None, s)
  end.

(** _utils.py:57,95: [int((f"{frac:<06s}")[:6])] *)
Definition micros (f : option str) : N :=
  match f with
  | None => 0
  | Some ds => dec_value (firstn 6 (ds ++ repeat 48 (6 - List.length ds)))
  end.

(** _utils.py:27-34 RFC_3339_DATETIME *)
Definition m_datetime (s : str) : option (date * time * option Z) :=
  do (d, r) <- m_date re_month re_day s;
  match r with
  | c :: r => if (c =? 84) || (c =? 116) || (c =? chSP)
              then do (h, m, sec, f, r) <- m_time re_hour re_min re_sec r;
                   let '(tz, r) := m_tz r in
                   if re_end r then Some (d, mkTime h m sec (micros f), tz) else None
              else None
  | [] => None
  end.

(** _utils.py:45-99 [parse_rfc3339] *)
Definition parse_rfc3339 (s : str) : res rfcval :=
  match m_datetime s with
  | Some (d, t, tz) => rbind (py_datetime d t tz) (fun x => Ok (RDateTime x))
  | None =>
      match (do (d, r) <- m_date re_month re_day s; if re_end r then Some d else None) with
      | Some d => rbind (py_date d) (fun x => Ok (RDate x))
      | None =>
          match (do (h, m, sec, f, r) <- m_time re_hour re_min re_sec s;
                 if re_end r then Some (mkTime h m sec (micros f)) else None) with
          | Some t => rbind (py_time t) (fun x => Ok (RTime x))
          | None => Err ValueErrorE
          end
      end
  end.

(** _utils.py:16-25 RFC_3339_LOOSE: which of groups 1 (date) and 5 (time) matched;
    [None] if the whole pattern does not match. *)
Definition m_loose_time (s : str) : bool :=
  let s := match s with
           | c :: r => if (c =? 84) || (c =? 116) || (c =? chSP) then r else s
           | [] => s end in
  match m_time re_dd re_dd re_dd s with
  | Some (_, r) => re_end (snd (m_tz r))
  | None => false
  end.
Definition loose_match (s : str) : option (bool * bool) :=
  match m_date re_dd re_dd s with
  | Some (_, r) => if m_loose_time r then Some (true, true)
                   else if re_end r then Some (true, false) else None
  | None => if m_loose_time s then Some (false, true)
            else if re_end s then Some (false, false) else None
  end.

(** Python [isoformat()] for date, naive time, datetime with whole-minute offset. *)
Definition iso_date (d : date) : str :=
  dec_pad 4 (d_year d) ++ [chMINUS] ++ dec_pad 2 (d_month d) ++ [chMINUS] ++ dec_pad 2 (d_day d).
Definition iso_time (t : time) : str :=
  dec_pad 2 (t_hour t) ++ [chCOLON] ++ dec_pad 2 (t_min t) ++ [chCOLON] ++ dec_pad 2 (t_sec t)
  ++ (if t_us t =? 0 then [] else chDOT :: dec_pad 6 (t_us t)).
Definition iso_off (o : option Z) : str :=
  match o with
  | None => []
  | Some z => let a := Z.abs_N z in
              (if (z <? 0)%Z then chMINUS else chPLUS) :: dec_pad 2 (a / 60) ++ [chCOLON] ++ dec_pad 2 (a mod 60)
  end.
Definition iso_datetime (d : datetime) : str :=
  iso_date (dt_date d) ++ [84] ++ iso_time (dt_time d) ++ iso_off (dt_off d).
