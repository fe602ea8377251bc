(** Base: Python [str] as a list of code points, the helpers of [str] that
    tomlkit uses, and the character classes of tomlkit/toml_char.py.

    Simplifications (global): a Python [str] is [list N]; elements are meant to
    be code points (0..0x10FFFF, surrogates included, as in CPython). *)
From Coq Require Export Ascii String NArith ZArith Bool Arith List Lia.
Export ListNotations.
Open Scope N_scope.
Open Scope bool_scope.
Open Scope list_scope.

Notation char := N (only parsing).
Notation str := (list N) (only parsing).

(** Literal strings: [L "abc"] is the list of code points of the ASCII text. *)
Definition L (s : string) : str := map N_of_ascii (list_ascii_of_string s).

Definition chNUL : char := 0.
Definition chTAB : char := 9.
Definition chLF : char := 10.
Definition chCR : char := 13.
Definition chSP : char := 32.
Definition chDQ : char := 34.    (* double quote *)
Definition chHASH : char := 35.
Definition chSQ : char := 39.    (* single quote *)
Definition chPLUS : char := 43.
Definition chCOMMA : char := 44.
Definition chMINUS : char := 45.
Definition chDOT : char := 46.
Definition chCOLON : char := 58.
Definition chEQ : char := 61.
Definition chLBR : char := 91.
Definition chBSL : char := 92.
Definition chRBR : char := 93.
Definition chUND : char := 95.
Definition chLCB : char := 123.
Definition chRCB : char := 125.

(** Python [c in s] for a one-character [c]. *)
Definition inb (c : char) (s : str) : bool := existsb (N.eqb c) s.

Fixpoint str_eqb (a b : str) : bool :=
  match a, b with
  | [], [] => true
  | x :: a', y :: b' => N.eqb x y && str_eqb a' b'
  | _, _ => false
  end.

(** [s.startswith(p)] *)
Fixpoint startswith (p s : str) : bool :=
  match p, s with
  | [], _ => true
  | x :: p', y :: s' => N.eqb x y && startswith p' s'
  | _ :: _, [] => false
  end.

(** [s.endswith(p)] *)
Definition endswith (p s : str) : bool := startswith (rev p) (rev s).

(** [p in s] for strings (substring test). *)
Fixpoint substr (p s : str) : bool :=
  startswith p s || match s with [] => false | _ :: s' => substr p s' end.

(** [str.isspace] for one character: whitespace of CPython's [str.strip()],
    [int()], [float()] (Unicode 14). *)
Definition py_isspace (c : char) : bool :=
  ((9 <=? c) && (c <=? 13)) || ((28 <=? c) && (c <=? 32)) || (c =? 133) || (c =? 160)
  || (c =? 5760) || ((8192 <=? c) && (c <=? 8202)) || (c =? 8232) || (c =? 8233)
  || (c =? 8239) || (c =? 8287) || (c =? 12288).

Fixpoint drop_while (p : char -> bool) (s : str) : str :=
  match s with
  | [] => []
  | c :: s' => if p c then drop_while p s' else s
  end.

Fixpoint take_while (p : char -> bool) (s : str) : str :=
  match s with
  | [] => []
  | c :: s' => if p c then c :: take_while p s' else []
  end.

Definition lstrip_p (p : char -> bool) (s : str) : str := drop_while p s.
Definition rstrip_p (p : char -> bool) (s : str) : str := rev (drop_while p (rev s)).
(** [s.strip()], [s.rstrip()], [s.rstrip(chars)] *)
Definition strip (s : str) : str := rstrip_p py_isspace (lstrip_p py_isspace s).
Definition rstrip (s : str) : str := rstrip_p py_isspace s.

(** [s.lower()]; simplified to ASCII.  Only the characters U+0130 and U+212A
    lower-case into ASCII, to "i"+U+0307 and "k", neither of which can turn an
    invalid number into a valid one. *)
Definition lower_c (c : char) : char :=
  if (65 <=? c) && (c <=? 90) then c + 32 else c.
Definition lower (s : str) : str := map lower_c s.

(** [s.replace(old, new)] with non-empty [old]: leftmost non-overlapping. *)
Fixpoint replace_aux (old new s : str) (skip : nat) : str :=
  match s with
  | [] => []
  | c :: s' =>
      match skip with
      | S k => replace_aux old new s' k
      | O => if startswith old s
             then new ++ replace_aux old new s' (List.length old - 1)
             else c :: replace_aux old new s' 0
      end
  end.
Definition replace (old new s : str) : str := replace_aux old new s 0.

(** [s.split("e", 1)[0]] *)
Definition before_char (c : char) (s : str) : str := take_while (fun x => negb (x =? c)) s.

(** Python's [str.join] *)
Fixpoint join (sep : str) (l : list str) : str :=
  match l with
  | [] => []
  | [x] => x
  | x :: l' => x ++ sep ++ join sep l'
  end.

Definition concat_str (l : list str) : str := List.concat l.

(** Starting points of the runs of ten decimal digits (category Nd) above ASCII,
    Unicode 14 (CPython 3.11): used by [int()], [float()] and the regexp [\d]. *)
Definition nd_starts : list N :=
  [1632; 1776; 1984; 2406; 2534; 2662; 2790; 2918; 3046; 3174; 3302; 3430; 3558; 3664; 3792; 3872;
   4160; 4240; 6112; 6160; 6470; 6608; 6784; 6800; 6992; 7088; 7232; 7248; 42528; 43216; 43264; 43472;
   43504; 43600; 44016; 65296; 66720; 68912; 69734; 69872; 69942; 70096; 70384; 70736; 70864; 71248;
   71360; 71472; 71904; 72016; 72784; 73040; 73120; 92768; 92864; 93008; 120782; 120792; 120802; 120812;
   120822; 123200; 123632; 125264; 130032].

(** Value of a Unicode decimal digit. *)
Definition uni_digit (c : char) : option N :=
  if (48 <=? c) && (c <=? 57) then Some (c - 48)
  else match find (fun b => (b <=? c) && (c <=? b + 9)) nd_starts with
       | Some b => Some (c - b)
       | None => None
       end.

Definition is_ascii_digit (c : char) : bool := (48 <=? c) && (c <=? 57).
Definition is_uni_digit (c : char) : bool := match uni_digit c with Some _ => true | None => false end.

(** Decimal text of a natural number / integer: [str(n)]. *)
Fixpoint dec_aux (fuel : nat) (n : N) (acc : str) : str :=
  match fuel with
  | O => acc
  | S f => if n <? 10 then (48 + n) :: acc
           else dec_aux f (n / 10) ((48 + n mod 10) :: acc)
  end.
Definition dec_N (n : N) : str := dec_aux (S (N.size_nat n)) n [].
Definition dec_Z (z : Z) : str :=
  match z with
  | Z0 => [48]
  | Zpos p => dec_N (Npos p)
  | Zneg p => chMINUS :: dec_N (Npos p)
  end.

(** Zero-padded decimal text of width [w] (for values that fit: [f"{n:0wd}"]). *)
Fixpoint dec_pad (w : nat) (n : N) : str :=
  match w with
  | O => []
  | S w' => dec_pad w' (n / 10) ++ [48 + n mod 10]
  end.

(** One lower-case hex digit. *)
Definition hex_digit (n : N) : char := if n <? 10 then 48 + n else 87 + n.

(** tomlkit/toml_char.py:11-16 *)
Definition is_ascii_letter (c : char) : bool :=
  ((65 <=? c) && (c <=? 90)) || ((97 <=? c) && (c <=? 122)).
(** toml_char.py:11,18-22 [BARE], [is_bare_key_char] *)
Definition is_bare_key_char (c : char) : bool :=
  is_ascii_letter c || is_ascii_digit c || (c =? chMINUS) || (c =? chUND).
(** toml_char.py:12,24-28 [KV], [is_kv_sep] *)
Definition is_kv_sep (c : char) : bool := (c =? chEQ) || (c =? chSP) || (c =? chTAB).
(** toml_char.py:14,48-52 [SPACES], [is_spaces] *)
Definition is_spaces (c : char) : bool := (c =? chSP) || (c =? chTAB).
(** toml_char.py:15,42-46 [NL], [is_nl] *)
Definition is_nl (c : char) : bool := (c =? chLF) || (c =? chCR).
(** toml_char.py:16,36-40 [WS], [is_ws] *)
Definition is_ws (c : char) : bool := is_spaces c || is_nl c.

(** The delimiter set " \t\n\r#,]}" of parser.py:447,459,1098. *)
Definition is_val_delim (c : char) : bool :=
  (c =? chSP) || (c =? chTAB) || (c =? chLF) || (c =? chCR) || (c =? chHASH)
  || (c =? chCOMMA) || (c =? chRBR) || (c =? chRCB).

(** _utils.py CONTROL_CHARS (line 103): code points 0..31 and 127. *)
Definition is_control (c : char) : bool := (c <=? 31) || (c =? 127).

(** Python exceptions as values.  [ParseErr k line col] covers ParseError and its
    subclasses (exceptions.py). *)
Inductive pkind :=
  | KGeneric            (* ParseError itself *)
  | KInvalidNumber | KInvalidDateTime | KInvalidDate | KInvalidTime
  | KInvalidUnicode
  | KUnexpectedChar (c : char)
  | KEmptyKey | KEmptyTableName
  | KInvalidCharInString (c : char)
  | KUnexpectedEof
  | KInternal
  | KInvalidControl (c : char).

Inductive exn :=
  | ParseErr (k : pkind) (line col : nat)
  | KeyAlreadyPresentE (k : str)      (* exceptions.KeyAlreadyPresent *)
  | NonExistentKeyE (k : str)         (* exceptions.NonExistentKey (a KeyError) *)
  | TOMLKitErrorE                     (* exceptions.TOMLKitError *)
  | InvalidStringE                    (* exceptions.InvalidStringError *)
  | ConvertE                          (* items._ConvertError *)
  | ValueErrorE | OverflowErrorE | IndexErrorE | KeyErrorE | TypeErrorE | AttributeErrorE
  | LossyE (n : nat)                  (* strict runs only: a lossy branch was taken *)
  | UnmodelledE                       (* aliasing effect outside the tree model *)
  | FuelE.                            (* model ran out of fuel *)

(** Subclasses of TOMLKitError (exceptions.py). *)
Definition is_tomlkit_error (e : exn) : bool :=
  match e with
  | ParseErr _ _ _ | KeyAlreadyPresentE _ | NonExistentKeyE _ | TOMLKitErrorE | InvalidStringE => true
  | _ => false
  end.

Inductive res (A : Type) := Ok (a : A) | Err (e : exn).
Arguments Ok {A}. Arguments Err {A}.
Definition rbind {A B} (r : res A) (f : A -> res B) : res B :=
  match r with Ok a => f a | Err e => Err e end.
Notation "'let*' x := r 'in' k" := (rbind r (fun x => k)) (at level 200, x pattern, right associativity).
