(** Document: specification for C40, independent of the parser: TOML documents and
    the Python dicts they stand for.  Values, keys and strings are those of Denote.v.

    Not covered: a table whose parts are scattered, a sub-table of a table that dotted
    keys describe, or a table opened after one of its sub-tables; inside an array
    of tables [\[\[x\]\]], a table [x] that has no header of its own (tomlkit fails on
    some of those: see C27). *)
From Verif Require Import Base PyVal Grammar Denote.
Open Scope N_scope.

(** Everywhere [z] is the text that follows. *)
Definition line_end (z e : str) : Prop := e = [10] \/ e = [13; 10] \/ (e = [] /\ z = []).
(** The rest of a line: blanks, perhaps a comment, the line break. *)
Definition line_tail (z t : str) : Prop := exists b c e, t = b ++ c ++ e /\ blanks b /\ (c = [] \/ comment c) /\ line_end z e.
(** Lines below a header: blank lines, comments and "key = value".  [pair_lines z l w l']:
    they turn [l] into [l']. *)
Inductive pair_lines (z : str) : list (str * node) -> str -> list (str * node) -> Prop :=
  | pl_nil l : pair_lines z l [] l
  | pl_void t w l l2 : line_tail (w ++ z) t -> pair_lines z l w l2 -> pair_lines z l (t ++ w) l2
  | pl_pair a k names s v x t w l l1 l2 : blanks a -> key_means k names -> sep_text s -> denotes v x -> put names x l l1 -> line_tail (w ++ z) t ->
      pair_lines z l1 w l2 -> pair_lines z l ((a ++ k ++ s ++ v ++ t) ++ w) l2.
(** "\[names\]" and "\[\[names\]\]" *)
Definition header (z : str) (array : bool) (names : list str) (w : str) : Prop :=
  exists a k t, blanks a /\ key_means k names /\ line_tail z t /\
    w = a ++ (if array then [91; 91] ++ k ++ [93; 93] else [91] ++ k ++ [93]) ++ t.
(** [path]: where we are; [tops]: the name of the array of tables at the top of the
    document that we are in. *)
Inductive body : list str -> list str -> str -> str -> list (str * pyv) -> Prop :=
  | bd tops path z u ps w l : pair_lines (w ++ z) [] u ps -> tables tops path z w l -> NoDup (map fst (dict_of ps ++ l)) -> body tops path z (u ++ w) (dict_of ps ++ l)
with tables : list str -> list str -> str -> str -> list (str * pyv) -> Prop :=
  | ts_nil tops path z : tables tops path z [] []
  | ts_cons tops path z k v u w l : table tops path (w ++ z) k u v -> tables tops path z w l -> tables tops path z (u ++ w) ((k, v) :: l)
(** The text of the table, or array of tables, [k]. *)
with table : list str -> list str -> str -> str -> str -> pyv -> Prop :=
  | tb_table tops path z k h w d : header (w ++ z) false (path ++ [k]) h -> body tops (path ++ [k]) z w d -> table tops path z k (h ++ w) (PDict d)
  (** no header of its own: "\[k.x\]", "\[k.y\]" *)
  | tb_implicit tops path z k w l : ~ In k tops -> tables tops (path ++ [k]) z w l -> l <> [] -> NoDup (map fst l) -> table tops path z k w (PDict l)
  | tb_array tops path z k w ds : array_elements (match path with [] => k :: tops | _ => tops end) (path ++ [k]) z w ds -> ds <> [] ->
      table tops path z k w (PList (map PDict ds))
with array_elements : list str -> list str -> str -> str -> list (list (str * pyv)) -> Prop :=
  | ae_nil tops path z : array_elements tops path z [] []
  | ae_cons tops path z h u d w ds : header (u ++ w ++ z) true path h -> body tops path (w ++ z) u d -> array_elements tops path z w ds ->
      array_elements tops path z (h ++ u ++ w) (d :: ds).
(** The document [w] stands for the dict [d]. *)
Definition document_means (w : str) (d : list (str * pyv)) : Prop := body [] [] [] w d.
Scheme body_mut := Minimality for body Sort Prop
  with tables_mut := Minimality for tables Sort Prop
  with table_mut := Minimality for table Sort Prop
  with elements_of_mut := Minimality for array_elements Sort Prop.
Combined Scheme document_mut from body_mut, tables_mut, table_mut, elements_of_mut.
