(** Spelling: specification for C01, independent of the parser: how the headers of a
    document are spelled and indented. *)
From Verif Require Import Base PyVal Grammar Denote Document.
Open Scope N_scope.

(** [a] is a whole number of lines. *)
Definition starts (a : str) : Prop := a = [] \/ exists b, a = b ++ [10].
(** The text [s] has a line which reads like a header: the blanks [bl], the names [Q] spelled [ws]. *)
Definition header_line (s bl : str) (ws Q : list str) : Prop :=
  exists a array t z, s = a ++ (bl ++ (if array : bool then [91; 91] ++ join [46] ws ++ [93; 93] else [91] ++ join [46] ws ++ [93]) ++ t) ++ z /\
    starts a /\ blanks bl /\ Forall2 name_means ws Q /\ line_tail z t.
(** Headers spell the name [n] as [sp n], everywhere, and a header of three names or more is not
    indented with spaces. *)
Definition even_headers (sp : str -> str) (s : str) : Prop :=
  forall bl ws Q, header_line s bl ws Q -> ws = map sp Q /\ ((3 <= List.length Q)%nat -> ~ In 32 bl).
