(** Source: model of tomlkit/source.py — the reader over the input text — and
    the state monad in which the parser is written. *)
From Verif Require Import Base.

(** source.py:63-76.  The reader state is a zipper: [p_pre] is the text before
    the index, [p_rest] the text from the index on, so [len(p_pre) = _idx],
    [_current] is the head of [p_rest] and the whole source is
    [p_pre ++ p_rest].  [_chars] (the iterator) is determined by the index.
    [p_mark] is [_marker]. *)
Record pst := mkSt { p_pre : str; p_rest : str; p_mark : nat }.

Definition src (st : pst) : str := p_pre st ++ p_rest st.
Definition idx (st : pst) : nat := List.length (p_pre st).

(** source.py:66-78: construction; [inc] moves from "before the first character"
    to index 0. *)
Definition start (s : str) : pst := mkSt [] s 0.

(** source.py:64,95-97,120: [_current]; at the end of input it is [EOF], a NUL. *)
Definition cur (st : pst) : char := match p_rest st with [] => chNUL | c :: _ => c end.
(** source.py:147-151 [end]: identity with the EOF object, i.e. really at the end
    (a NUL character inside the text is not the end). *)
Definition at_end (st : pst) : bool := match p_rest st with [] => true | _ => false end.

(** source.py:103-107 [extract]: [self[marker:idx]]. *)
Definition extract (st : pst) : str := skipn (p_mark st) (p_pre st).
(** source.py:153-157 [mark] *)
Definition set_mark (st : pst) : pst := mkSt (p_pre st) (p_rest st) (List.length (p_pre st)).

(** source.py:109-124 [inc] without exception: returns whether a further
    character was available. *)
Definition inc (st : pst) : bool * pst :=
  match p_rest st with
  | [] => (false, st)
  | c :: r => (match r with [] => false | _ => true end,
               mkSt (p_pre st ++ [c]) r (p_mark st))
  end.

(** [str.splitlines] line boundaries. *)
Definition is_linebreak (c : char) : bool :=
  ((10 <=? c) && (c <=? 13)) || ((28 <=? c) && (c <=? 30)) || (c =? 133) || (c =? 8232) || (c =? 8233).

(** [str.splitlines()]; [acc] is the current line, reversed. *)
Fixpoint splitlines_aux (acc : str) (s : str) : list str :=
  match s with
  | [] => match acc with [] => [] | _ => [rev acc] end
  | c :: s' =>
      if is_linebreak c then
        match s' with
        | d :: s'' => if (c =? chCR) && (d =? chLF)
                      then rev acc :: splitlines_aux [] s''
                      else rev acc :: splitlines_aux [] s'
        | [] => [rev acc]
        end
      else splitlines_aux (c :: acc) s'
  end.
Definition splitlines (s : str) : list str := splitlines_aux [] s.

(** source.py:172-180 [_to_linecol]: the loop over the lines. *)
Fixpoint linecol_loop (lines : list str) (i cur0 ix : nat) (total : nat) : nat * nat :=
  match lines with
  | [] => (total, 0)%nat
  | l :: ls => if Nat.ltb ix (cur0 + List.length l + 1)
               then (i + 1, ix - cur0)%nat
               else linecol_loop ls (i + 1) (cur0 + List.length l + 1) ix total
  end.
Definition to_linecol (s : str) (ix : nat) : nat * nat :=
  let ls := splitlines s in linecol_loop ls 0 0 ix (List.length ls).

(** source.py:159-170 [parse_error] *)
Definition parse_error (k : pkind) (st : pst) : exn :=
  let '(l, c) := to_linecol (src st) (idx st) in ParseErr k l c.

(** The parser monad: state passing with exceptions; an exception leaves the
    reader where it was raised (needed by [_parse_array], which catches one). *)
Definition M (A : Type) := pst -> res A * pst.
Definition ret {A} (a : A) : M A := fun st => (Ok a, st).
Definition bind {A B} (m : M A) (f : A -> M B) : M B :=
  fun st => match m st with
            | (Ok a, st') => f a st'
            | (Err e, st') => (Err e, st')
            end.
Definition raise {A} (k : pkind) : M A := fun st => (Err (parse_error k st), st).
Definition raise_exn {A} (e : exn) : M A := fun st => (Err e, st).
Definition get : M pst := fun st => (Ok st, st).
Definition lift {A} (r : res A) : M A := fun st => (r, st).
Definition fails {A} (r : res A * pst) : Prop := exists e st, r = (Err e, st).

Notation "x <- m ;; k" := (bind m (fun x => k)) (at level 100, m at next level, right associativity).
Notation "m ;;; k" := (bind m (fun _ => k)) (at level 100, right associativity).

Definition mark : M unit := fun st => (Ok tt, set_mark st).
Definition extractM : M str := fun st => (Ok (extract st), st).
Definition current : M char := fun st => (Ok (cur st), st).
Definition endM : M bool := fun st => (Ok (at_end st), st).
Definition incM : M bool := fun st => let '(b, st') := inc st in (Ok b, st').
(** source.py:118-122: [inc(exception=...)] *)
Definition inc_exn (k : pkind) : M unit :=
  fun st => let '(b, st') := inc st in if b then (Ok tt, st') else (Err (parse_error k st'), st').
(** source.py:126-131 [inc_n] without exception: [all(...)] stops at the first
    failure. *)
Fixpoint inc_n (n : nat) (st : pst) : bool * pst :=
  match n with
  | O => (true, st)
  | S n' => let '(b, st') := inc st in if b then inc_n n' st' else (false, st')
  end.
Definition inc_nM (n : nat) : M bool := fun st => let '(b, st') := inc_n n st in (Ok b, st').
Fixpoint inc_n_exn (n : nat) (k : pkind) : M unit :=
  match n with O => ret tt | S n' => inc_exn k ;;; inc_n_exn n' k end.

(** The loop [while p(self._current) and self.inc(): pass] (parser.py:287, 305,
    354, 381, 395, 447, 459, 492) and [consume(chars)] with the default bounds
    (source.py:133-145): advance over the longest prefix satisfying [p].  At the
    end of input [inc] returns False, so the loop stops whatever [p] says about
    the NUL that [_current] then is. *)
Definition adv_while (p : char -> bool) (st : pst) : pst :=
  mkSt (p_pre st ++ take_while p (p_rest st)) (drop_while p (p_rest st)) (p_mark st).
Definition adv_whileM (p : char -> bool) : M unit := fun st => (Ok tt, adv_while p st).

(** source.py:133-145: [consume(c, min=1, max=1)] *)
Definition consume1 (c : char) : M unit :=
  fun st => if cur st =? c then (Ok tt, snd (inc st))
            else (Err (parse_error (KUnexpectedChar (cur st)) st), st).

(** source.py:11-38 [_State.__exit__].
    [with self._state:] — on an exception go back to the saved position; the
    marker is not saved. *)
Definition restore_on_err {A} (m : M A) : M A :=
  fun st => match m st with
            | (Err e, st') => (Err e, mkSt (p_pre st) (p_rest st) (p_mark st'))
            | r => r
            end.
(** [with self._state(restore=True):] — always go back; marker not saved. *)
Definition restoring {A} (m : M A) : M A :=
  fun st => let '(r, st') := m st in (r, mkSt (p_pre st) (p_rest st) (p_mark st')).
(** [with self._state(save_marker=True, restore=True):] *)
Definition restoring_all {A} (m : M A) : M A :=
  fun st => let '(r, st') := m st in (r, st).
