(** Meaning: specification for C39, independent of the parser: what the lines of a
    TOML text say.  It is the layout of Grammar.v, with the meaning of strings,
    keys and lines written beside it. *)
From Verif Require Import Base Numbers Grammar.
Open Scope N_scope.

(** * Strings: the text between the quotes, and the characters it stands for *)
Definition short_escapes : list (char * char) := [(98, 8); (116, 9); (110, 10); (102, 12); (114, 13); (34, 34); (92, 92)].
(** Outside TOML (not all digits hexadecimal, or no such code point) nothing is said
    about the character. *)
Inductive escape_says : str -> str -> Prop :=
  | xs_short c v : In (c, v) short_escapes -> escape_says [92; c] [v]
  | xs_u w v : List.length w = 4%nat -> (dig 16 w -> v = positional 16 w) -> escape_says (92 :: 117 :: w) [v]
  | xs_U w v : List.length w = 8%nat -> (dig 16 w -> v = positional 16 w) -> escape_says (92 :: 85 :: w) [v].
Definition no_head (P : char -> Prop) (w : str) : Prop := match w with c :: _ => ~ P c | [] => True end.
Section Strings.
  Context (basic ml : bool) (q : char).
  Inductive pieces_say : nat -> str -> str -> Prop :=
    | sy_nil k : pieces_say k [] []
    | sy_char k c w m : c <> q -> (basic = true -> c <> 92) -> (control_c c -> ml = true /\ newline_c c) -> pieces_say 0 w m -> pieces_say k (c :: w) (c :: m)
    | sy_escape k u v w m : basic = true -> escape_says u v -> pieces_say 0 w m -> pieces_say k (u ++ w) (v ++ m)
    (** a backslash at the end of a line: the white space is left out *)
    | sy_continued k u w m : basic = true -> ml = true -> Forall space_c u -> In 10 u -> no_head space_c w -> pieces_say 0 w m -> pieces_say k (92 :: u ++ w) m
    | sy_quote k w m : ml = true -> (k < 2)%nat -> pieces_say (S k) w m -> pieces_say k (q :: w) (q :: m).
End Strings.
(** A line break just after the opening quotes of a multi-line string is left out. *)
Definition first_newline (ml : bool) (n w : str) : Prop :=
  if ml then n = [10] \/ n = [13; 10] \/ (n = [] /\ no_head (fun c => c = 10) w /\ (forall r, w <> 13 :: 10 :: r)) else n = [].
Definition string_says (basic ml : bool) (w m : str) : Prop :=
  let q := quote_of basic in
  exists n b, pieces_say basic ml q 0 b m /\ first_newline ml n (b ++ [q]) /\
    w = if ml then [q; q; q] ++ n ++ b ++ [q; q; q] else [q] ++ b ++ [q].

(** * Keys: the names they stand for *)
Inductive name_says : str -> str -> Prop :=
  | nm_bare a c w z : blanks a -> bare_c c -> Forall (fun x => bare_c x \/ x = 9) w -> no_head blank_c (rev w) -> blanks z -> name_says (a ++ (c :: w) ++ z) (c :: w)
  | nm_quoted a basic w z m : blanks a -> string_says basic false w m -> blanks z -> name_says (a ++ w ++ z) m.
Inductive key_says : str -> list str -> Prop :=
  | ks_one w m : name_says w m -> key_says w [m]
  | ks_dot w m r l : name_says w m -> key_says r l -> key_says (w ++ [46] ++ r) (m :: l).

(** * Lines.  A statement: "names = value text", "[names]", "[[names]]". *)
Inductive stmt := Pair (names : list str) (v : str) | Table (names : list str) | Element (names : list str).
Section Lax.
Context (lax : bool).
Inductive line_says : bool -> str -> list stmt -> Prop :=
  | ly_rest closed t : rest_of_line closed t -> line_says closed t []
  | ly_pair closed a k names s v t : blanks a -> key_says k names -> sep_text s -> value_text lax v -> rest_of_line closed t -> line_says closed (a ++ k ++ s ++ v ++ t) [Pair names v]
  | ly_table closed a k names t : margin a -> key_says k names -> rest_of_line closed t -> line_says closed (a ++ [91] ++ k ++ [93] ++ t) [Table names]
  | ly_aot closed a k names x t : margin a -> key_says k names -> (x = [93] \/ (lax = true /\ (List.length x <= 1)%nat)) -> rest_of_line closed t ->
      line_says closed (a ++ [91; 91] ++ k ++ [93] ++ x ++ t) [Element names].
Inductive lines_say : str -> list stmt -> Prop :=
  | lsy_nil : lines_say [] []
  | lsy_snoc w l a b : lines_say w a -> line_says true l b -> lines_say (w ++ l) (a ++ b).
Definition document_says (w : str) (l : list stmt) : Prop :=
  lines_say w l \/ exists u v a b, w = u ++ v /\ lines_say u a /\ line_says false v b /\ l = a ++ b.
End Lax.

(** * What the statements say: values and tables at absolute paths *)
Fixpoint said (section : list str) (l : list stmt) : list (list str * option str) :=
  match l with
  | [] => []
  | Pair names v :: r => (section ++ names, Some v) :: said section r
  | Table names :: r => (names, None) :: said names r
  | Element names :: r => (names, None) :: said names r
  end.
Definition no_element (l : list stmt) : Prop := forall names, ~ In (Element names) l.
(** What the statements say at and below a path: paths relative to it. *)
Fixpoint strip_path (p path : list str) : option (list str) :=
  match p, path with
  | [], _ => Some path
  | x :: p, y :: path => if str_eqb x y then strip_path p path else None
  | _ :: _, [] => None
  end.
Definition below {A} (p : list str) (l : list (list str * A)) : list (list str * A) :=
  flat_map (fun f => match strip_path p (fst f) with Some r => [(r, snd f)] | None => [] end) l.
