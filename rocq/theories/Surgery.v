(** Surgery: specification for C46, independent of the container: what one edit does to the
    text of a document. *)
From Verif Require Import Base Utils Items Container PyVal Grammar Denote Document Spelling DumpText Edit Changes Possible.
Open Scope N_scope.

(** The rest of a line: blanks, perhaps a comment, the line break. *)
Definition line_rest (e : str) : Prop := exists b c n, e = b ++ c ++ n /\ Grammar.blanks b /\ (c = [] \/ comment c) /\ (n = [10] \/ n = [13; 10]).
(** [stroke o s s']: the edit [o] turns the text [s] into [s'].  [a] is a whole number of lines.
    - [t[k] = v] for a [k] that has a value: only the text of that value changes, on a line for [k];
    - for a new [k], or [t.add(k, v)]: one new line;
    - [del t[k]]: that line goes;
    - [t.add(comment(s))], [t.add(nl())]: one new line;
    - [t[k].comment(s)]: only what follows the value on the line changes;
    - [t[k].indent(n)]: only the blanks at the beginning of the line change;
    - an operation in the inline table that [k] has for a value, or in one inside it: only the text of that
      value changes, and it comes to denote the changed value. *)
Inductive stroke : eop -> str -> str -> Prop :=
  | st_value k v v' a i kt s old x new e b : starts a -> Grammar.blanks i -> name_means kt k -> sep_text s -> denotes old x -> line_rest e -> pyeq v v' -> denotes new v' ->
      stroke (ESet k v) (a ++ (i ++ kt ++ s ++ old ++ e) ++ b) (a ++ (i ++ kt ++ s ++ new ++ e) ++ b)
  | st_new k v v' a i kt new b : starts a -> Grammar.blanks i -> name_means kt k -> pyeq v v' -> denotes new v' ->
      stroke (ESet k v) (a ++ b) (a ++ (i ++ kt ++ L " = " ++ new ++ [10]) ++ b)
  | st_add k v v' a i kt new b : starts a -> Grammar.blanks i -> name_means kt k -> pyeq v v' -> denotes new v' ->
      stroke (EAdd k v) (a ++ b) (a ++ (i ++ kt ++ L " = " ++ new ++ [10]) ++ b)
  | st_gone k a i kt s old x e b : starts a -> Grammar.blanks i -> name_means kt k -> sep_text s -> denotes old x -> line_rest e ->
      stroke (EDel k) (a ++ (i ++ kt ++ s ++ old ++ e) ++ b) (a ++ b)
  | st_remark s a i b : starts a -> Grammar.blanks i -> stroke (ERemark s) (a ++ b) (a ++ (i ++ L "# " ++ s ++ [10]) ++ b)
  | st_newline a b : starts a -> stroke ENewline (a ++ b) (a ++ [10] ++ b)
  | st_note k c a i kt s old x u e h b : starts a -> Grammar.blanks i -> name_means kt k -> sep_text s -> denotes old x -> line_rest (u ++ e) -> line_rest e -> h = c \/ h = L "# " ++ c ->
      stroke (ENote k c) (a ++ (i ++ kt ++ s ++ old ++ u ++ e) ++ b) (a ++ (i ++ kt ++ s ++ old ++ L " " ++ h ++ e) ++ b)
  | st_indent k n a i kt s old x e b : starts a -> Grammar.blanks i -> name_means kt k -> sep_text s -> denotes old x -> line_rest e ->
      stroke (EIndent k n) (a ++ (i ++ kt ++ s ++ old ++ e) ++ b) (a ++ (repeat 32 n ++ kt ++ s ++ old ++ e) ++ b)
  | st_inside k q o a i kt s old x new x' e b : starts a -> Grammar.blanks i -> name_means kt k -> sep_text s -> denotes old x -> line_rest e -> changed_inside q o x x' -> denotes new x' ->
      stroke (EInside k q o) (a ++ (i ++ kt ++ s ++ old ++ e) ++ b) (a ++ (i ++ kt ++ s ++ new ++ e) ++ b).
Inductive strokes : list (list pstep * eop) -> str -> str -> Prop :=
  | sk_nil s : strokes [] s s
  | sk_cons p o es s s1 s2 : stroke o s s1 -> strokes es s1 s2 -> strokes ((p, o) :: es) s s2.

(** The edits C46 speaks of: those of C43 (Possible.v) that set values, delete values, add values,
    comments and empty lines, dress a value's line, or
    change an inline table.  Lines are only added to and removed from tables
    that have a header of their own, elements of arrays of tables and the document itself. *)
Definition own_header (m : option tmeta) : Prop := match m with None => True | Some m => tm_aot m = true \/ tm_super m = Some false end.
Definition small (m : option tmeta) (t : container) (o : eop) : Prop :=
  match o with
  | ESet k v => tablish v = false /\ (value_at t k \/ (absent t k /\ own_header m))
  | EDel k => value_at t k /\ own_header m
  | EAdd k v => tablish v = false /\ own_header m
  | ERemark _ | ENewline => own_header m
  | ENote k _ | EIndent k _ => value_at t k
  | EInside _ _ _ => True
  | EInsert _ _ _ | EDrop _ _ => False
  end.
Fixpoint surgical (c : container) (es : list (list pstep * eop)) : Prop :=
  match es with
  | [] => True
  | (p, o) :: es => (exists m t, table_at None c p = Some (m, t) /\ possible_op p (headless m) t o /\ small m t o) /\ forall c', edit_at None c p o = Ok c' -> surgical c' es
  end.
