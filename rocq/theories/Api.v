(** Api: model of the scalar part of tomlkit/api.py and of tomlkit/toml_file.py. *)
From Verif Require Import Base Source Utils Items Container Arrays Parser.

(** api.py:112-134 [tomlkit.string(raw, literal=..., multiline=...)], [escape=True]. *)
Definition api_string (v : str) (literal multiline : bool) : res item :=
  let* s := string_from_raw v (st_select literal multiline) in Ok (IVal s default_trivia).

(** items.py:142-145 [tomlkit.item(n)] for an int, a bool *)
Definition api_int (n : Z) : item := IVal (SInt n (dec_Z n)) default_trivia.
(** [str(x)] of a Python float whose shortest decimal is [m * 10^e] (CPython
    float_repr_style "short": fixed notation when -4 < decpt <= 16, otherwise an
    exponent of at least two digits), of an infinity, of a NaN. *)
Definition exp_text (e : Z) : str :=
  (if (e <? 0)%Z then [chMINUS] else [chPLUS])
  ++ (let d := dec_N (Z.abs_N e) in match d with [_] => 48 :: d | _ => d end).
Definition float_digits (m : N) (e : Z) : str :=
  let ds := dec_N m in
  let n := Z.of_nat (List.length ds) in
  let decpt := (n + e)%Z in
  if m =? 0 then L "0.0"
  else if ((-4 <? decpt) && (decpt <=? 16))%Z then
    if (decpt <=? 0)%Z then L "0." ++ List.repeat 48 (Z.to_nat (- decpt)) ++ ds
    else if (n <=? decpt)%Z then ds ++ List.repeat 48 (Z.to_nat (decpt - n)) ++ L ".0"
    else firstn (Z.to_nat decpt) ds ++ [chDOT] ++ skipn (Z.to_nat decpt) ds
  else match ds with
       | [d] => [d; 101] ++ exp_text (decpt - 1)
       | d :: r => [d; chDOT] ++ r ++ [101] ++ exp_text (decpt - 1)
       | [] => []
       end.
Definition float_text (f : fval) : str :=
  match f with
  | FDec neg m e => (if neg then [chMINUS] else []) ++ float_digits m e
  | FInf neg => (if neg then [chMINUS] else []) ++ L "inf"
  | FNan _ => L "nan"
  end.
(** items.py:146-147 [tomlkit.item(x)] for a float *)
Definition api_float (f : fval) : item := IVal (SFloat f (float_text f)) default_trivia.
Definition api_bool (b : bool) : item := IVal (SBool b) default_trivia.
(** items.py:193-215 [tomlkit.item(d)] for a date, a naive time, a datetime; the
    [replace("+00:00", "Z")] of line 204 included. *)
Definition api_date (d : date) : item := IVal (SDate d (iso_date d)) default_trivia.
Definition api_time (t : time) : item := IVal (STime t (iso_time t)) default_trivia.
Definition api_datetime (d : datetime) : item :=
  IVal (SDateTime d (replace (L "+00:00") (L "Z") (iso_datetime d))) default_trivia.

(** api.py:230-246 [tomlkit.key(k)] for a string, for a list of strings. *)
Definition api_key (k : str) : key := KSingle (skey_of_str k).
Definition api_dotted_key (ks : list str) : key := dotted_of (map skey_of_str ks) (L " = ").

(** api.py:136-160 [tomlkit.date(raw)], [tomlkit.time(raw)], [tomlkit.datetime(raw)].
    A [datetime.datetime] is a [datetime.date], so [tomlkit.date] accepts it. *)
Definition api_date_raw (raw : str) : res item :=
  let* v := parse_rfc3339 raw in
  match v with RDate d => Ok (api_date d) | RDateTime d => Ok (api_datetime d) | RTime _ => Err ValueErrorE end.
Definition api_time_raw (raw : str) : res item :=
  let* v := parse_rfc3339 raw in match v with RTime t => Ok (api_time t) | _ => Err ValueErrorE end.
Definition api_datetime_raw (raw : str) : res item :=
  let* v := parse_rfc3339 raw in match v with RDateTime d => Ok (api_datetime d) | _ => Err ValueErrorE end.

(** The Python value of a string / int / date ... item ([unwrap], items.py:1789,
    603, 985, 1062, 868). *)
Definition str_value (i : item) : option str := match i with IVal (SStr _ v _) _ => Some v | _ => None end.
Definition int_value (i : item) : option Z := match i with IVal (SInt z _) _ => Some z | _ => None end.
Definition float_value (i : item) : option fval := match i with IVal (SFloat f _) _ => Some f | _ => None end.
Definition bool_value (i : item) : option bool := match i with IVal (SBool b) _ => Some b | _ => None end.
Definition date_value (i : item) : option date := match i with IVal (SDate d _) _ => Some d | _ => None end.
Definition time_value (i : item) : option time := match i with IVal (STime d _) _ => Some d | _ => None end.
Definition datetime_value (i : item) : option datetime := match i with IVal (SDateTime d _) _ => Some d | _ => None end.

(** * toml_file.py *)

(** [content.count(p)]: non-overlapping occurrences, from the left. *)
Fixpoint count_aux (p s : str) (skip : nat) : nat :=
  match s with
  | [] => O
  | c :: s' => match skip with
               | S k => count_aux p s' k
               | O => if startswith p s then S (count_aux p s' (List.length p - 1)) else count_aux p s' 0
               end
  end.
Definition count (p s : str) : nat := count_aux p s 0.

(** toml_file.py:30,44-49: the values of [_linesep]. *)
Inductive linesep := LsLF | LsCRLF | LsMixed | LsOther.
Definition crlf : str := [chCR; chLF].

(** toml_file.py:33-51 [read]: the new [_linesep] (kept when there is no line
    break) and the document. *)
Definition file_linesep (old : linesep) (content : str) : linesep :=
  let nl := count [chLF] content in
  if Nat.ltb 0 nl then
    let w := count crlf content in
    if Nat.eqb w nl then LsCRLF else if Nat.eqb w 0 then LsLF else LsMixed
  else old.
Definition file_read (old : linesep) (content : str) : res (container * linesep) :=
  let* d := parse content in Ok (d, file_linesep old content).

(** [re.sub(r"(?<!\r)\n", "\r\n", s)]: [prev] is the previous character of the
    original text. *)
Fixpoint sub_lf (prev : option char) (s : str) : str :=
  match s with
  | [] => []
  | c :: s' =>
      (if (c =? chLF) && negb (match prev with Some p => p =? chCR | None => false end)
       then crlf else [c]) ++ sub_lf (Some c) s'
  end.
(** toml_file.py:53-64 [write]: the bytes (as text) written. *)
Definition file_write (ls : linesep) (content : str) : str :=
  match ls with
  | LsLF => replace crlf [chLF] content
  | LsCRLF => sub_lf None content
  | _ => content
  end.
