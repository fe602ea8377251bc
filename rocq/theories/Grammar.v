(** Grammar: specification for C37, independent of the parser: the layout of a TOML
    document.  [lax] switches on the two places where tomlkit is more liberal
    than TOML ([el_dropped] and the second bracket of [ln_aot]). *)
From Verif Require Import Base.
Open Scope N_scope.

(** * Characters *)
Definition blank_c (c : char) : Prop := c = 32 \/ c = 9.
Definition newline_c (c : char) : Prop := c = 10 \/ c = 13.
Definition space_c (c : char) : Prop := blank_c c \/ newline_c c.
Definition control_c (c : char) : Prop := c = 127 \/ (c <= 31 /\ c <> 9).
Definition digit_c (c : char) : Prop := 48 <= c <= 57.
Definition bare_c (c : char) : Prop := 65 <= c <= 90 \/ 97 <= c <= 122 \/ digit_c c \/ c = 45 \/ c = 95.
(** blank, line break, [#], [,], [\]], [}] *)
Definition delim_c (c : char) : Prop := space_c c \/ c = 35 \/ c = 44 \/ c = 93 \/ c = 125.
Definition blanks (w : str) : Prop := Forall blank_c w.
(** Blanks, and carriage returns that no line feed follows. *)
Definition margin (w : str) : Prop := Forall (fun c => blank_c c \/ c = 13) w.
Definition comment (w : str) : Prop := exists t, w = 35 :: t /\ Forall (fun c => ~ control_c c) t.

(** * Strings *)
Inductive escape : str -> Prop :=
  | es_short c : In c [98; 116; 110; 102; 114; 34; 92] -> escape [92; c]
  | es_u w : List.length w = 4%nat -> escape (92 :: 117 :: w)
  | es_U w : List.length w = 8%nat -> escape (92 :: 85 :: w).
Section Strings.
  (** [basic]: with escapes; [ml]: multi-line; [q]: the quote. *)
  Context (basic ml : bool) (q : char).
  Inductive piece : str -> Prop :=
    | pc_char c : c <> q -> (basic = true -> c <> 92) -> (control_c c -> ml = true /\ newline_c c) -> piece [c]
    | pc_escape w : basic = true -> escape w -> piece w
    | pc_continued w : basic = true -> ml = true -> Forall space_c w -> In 10 w -> piece (92 :: w).
  (** [pieces k w]: [k] quotes stand just before [w]; never three in a row. *)
  Inductive pieces : nat -> str -> Prop :=
    | ps_nil k : pieces k []
    | ps_piece k u w : piece u -> pieces 0 w -> pieces k (u ++ w)
    | ps_quote k w : ml = true -> (k < 2)%nat -> pieces (S k) w -> pieces k (q :: w).
End Strings.
Definition quote_of (basic : bool) : char := if basic then 34 else 39.
Definition string_text (basic ml : bool) (w : str) : Prop :=
  let q := quote_of basic in
  exists b, pieces basic ml q 0 b /\ w = if ml then [q; q; q] ++ b ++ [q; q; q] else [q] ++ b ++ [q].

(** * Keys.  A tab inside a bare key is let through. *)
Inductive simple_key : str -> Prop :=
  | sk_bare a c w z : blanks a -> bare_c c -> Forall (fun x => bare_c x \/ x = 9) w -> blanks z -> simple_key (a ++ (c :: w) ++ z)
  | sk_quoted a basic w z : blanks a -> string_text basic false w -> blanks z -> simple_key (a ++ w ++ z).
Inductive key_text : str -> Prop :=
  | kt_one w : simple_key w -> key_text w
  | kt_dot w r : simple_key w -> key_text r -> key_text (w ++ [46] ++ r).
Definition sep_text (w : str) : Prop := exists a b, w = a ++ [61] ++ b /\ blanks a /\ blanks b.

(** * Values *)
(** ASCII punctuation other than [+ - . : _ |]. *)
Definition punct_c (c : char) : Prop :=
  33 <= c <= 42 \/ c = 44 \/ c = 47 \/ 59 <= c <= 64 \/ 91 <= c <= 94 \/ c = 96 \/ c = 123 \/ 125 <= c <= 126.
(** A number, a time, or a date in one piece. *)
Definition word (w : str) : Prop :=
  Forall (fun c => ~ delim_c c /\ ~ punct_c c /\ (c <= 27 -> 11 <= c <= 12) /\ c <> 127) w /\
  ((exists c r, w = c :: r /\ (digit_c c \/ c = 43 \/ c = 45)) \/ w = L "inf" \/ w = L "nan").
(** A date, and possibly a blank and a time; white space may follow. *)
Definition date_text (w : str) : Prop := exists y m d, w = y ++ [45] ++ m ++ [45] ++ d
  /\ y <> [] /\ List.length m = 2%nat /\ List.length d = 2%nat /\ Forall digit_c (y ++ m ++ d).
Definition clock_c (c : char) : Prop := digit_c c \/ In c [58; 46; 43; 45; 124; 90; 122].
(** Space between the parts of an array: white space and comments. *)
Inductive gap : str -> Prop :=
  | gap_ws w : Forall space_c w -> gap w
  | gap_comment w k c r : Forall space_c w -> comment k -> newline_c c -> gap (c :: r) -> gap (w ++ k ++ c :: r).

Section Lax.
Context (lax : bool).
Inductive value_text : str -> Prop :=
  | vt_string basic ml w : string_text basic ml w -> value_text w
  | vt_true : value_text (L "true")
  | vt_false : value_text (L "false")
  | vt_word w : word w -> value_text w
  | vt_date d z : date_text d -> Forall (fun c => py_isspace c = true) z -> value_text (d ++ z)
  | vt_datetime d t z : date_text d -> t <> [] -> Forall clock_c t -> Forall (fun c => py_isspace c = true) z -> value_text (d ++ [32] ++ t ++ z)
  | vt_array w : elems false w -> value_text ([91] ++ w ++ [93])
  | vt_empty b : blanks b -> value_text ([123] ++ b ++ [125])
  | vt_inline w : pairs w -> value_text ([123] ++ w ++ [125])
(** Inside an array; [true]: just after a value. *)
with elems : bool -> str -> Prop :=
  | el_end after g : gap g -> elems after g
  | el_value g v r : gap g -> value_text v -> elems true r -> elems false (g ++ v ++ r)
  | el_comma g r : gap g -> elems false r -> elems true (g ++ [44] ++ r)
  (** TOML has no such thing: an unfinished inline table before the bracket *)
  | el_dropped g j : lax = true -> gap g -> elems false (g ++ 123 :: j)
(** Inside an inline table: no comma at the end. *)
with pairs : str -> Prop :=
  | pr_last b k s v z : blanks b -> key_text k -> sep_text s -> value_text v -> blanks z -> pairs (b ++ k ++ s ++ v ++ z)
  | pr_more b k s v z r : blanks b -> key_text k -> sep_text s -> value_text v -> blanks z -> pairs r -> pairs ((b ++ k ++ s ++ v ++ z) ++ [44] ++ r).

(** * Lines.  [closed]: ends with a line break. *)
Inductive rest_of_line : bool -> str -> Prop :=
  | rl_newline m : margin m -> rest_of_line true (m ++ [10])
  | rl_comment m k e : margin m -> comment k -> In e [[10]; [13]; [13; 10]] -> rest_of_line true (m ++ k ++ e)
  | rl_end m : margin m -> rest_of_line false m
  | rl_comment_end m k : margin m -> comment k -> rest_of_line false (m ++ k).
Inductive line : bool -> str -> Prop :=
  | ln_rest closed t : rest_of_line closed t -> line closed t
  | ln_pair closed a k s v t : blanks a -> key_text k -> sep_text s -> value_text v -> rest_of_line closed t -> line closed (a ++ k ++ s ++ v ++ t)
  | ln_table closed a k t : margin a -> key_text k -> rest_of_line closed t -> line closed (a ++ [91] ++ k ++ [93] ++ t)
  | ln_aot closed a k x t : margin a -> key_text k -> (x = [93] \/ (lax = true /\ (List.length x <= 1)%nat)) -> rest_of_line closed t ->
      line closed (a ++ [91; 91] ++ k ++ [93] ++ x ++ t).
Inductive lines : str -> Prop :=
  | ls_nil : lines []
  | ls_snoc w l : lines w -> line true l -> lines (w ++ l).
(** A document: lines, the last of which may lack its line break. *)
Definition document (w : str) : Prop := lines w \/ exists a l, w = a ++ l /\ lines a /\ line false l.
End Lax.
Scheme value_mut := Induction for value_text Sort Prop
  with elems_mut := Induction for elems Sort Prop
  with pairs_mut := Induction for pairs Sort Prop.
Combined Scheme values_mut from value_mut, elems_mut, pairs_mut.
