(** DumpText: the text [tomlkit.dumps] writes, as a function of the Python value
    (proved in DumpRender.v), and the exact class of values for which reading it
    back goes wrong. *)
From Verif Require Import Base Utils Items PyVal PyItem Api.

Definition key1 (k : str) : str := k_orig (skey_of_str k).
(** A value on the right of an equals sign, or inside an array or inline table.
    [nw]: a dict standing directly in a list is written with a space after its
    commas, and with its dict-valued entries last. *)
Fixpoint vtext (nw : bool) (v : pyv) : str :=
  match v with
  | PStr s => [chDQ] ++ escape_string (escaped_sequences SLB) s ++ [chDQ]
  | PInt z => dec_Z z
  | PBool b => if b then L "true" else L "false"
  | PFloat f => float_text f
  | PDate d => iso_date d
  | PTime t => iso_time t
  | PDateTime d => replace (L "+00:00") (L "Z") (iso_datetime d)
  | PList l => [chLBR] ++ join (L ", ") (map (vtext true) l) ++ [chRBR]
  | PDict kvs =>
      let es := map (fun kv : str * pyv => match kv with (k, x) => (is_dict x, key1 k ++ L " = " ++ vtext false x) end) kvs in
      [chLCB] ++ join (if nw then L ", " else L ",") (if nw then dicts_last es else map snd es) ++ [chRCB]
  end.

(** Written as a table or an array of tables rather than on one line. *)
Definition tablish (v : pyv) : bool :=
  match v with PDict _ => true | PList (x :: l) => forallb is_dict (x :: l) | _ => false end.
(** A dict whose only entry is again a table: its header is left out. *)
Definition superb (v : pyv) : bool := match v with PDict [(_, x)] => tablish x | _ => false end.

Definition path_text (path : list str) : str := join [chDOT] (map key1 path).
Definition hdr (aot : bool) (path : list str) : str :=
  (if aot then [chLBR; chLBR] else [chLBR]) ++ path_text path ++ (if aot then [chRBR; chRBR] else [chRBR]) ++ [chLF].
(** Entries of a dict: the lines first, then the tables, with a blank line before
    each table that was not the first entry. *)
Definition with_blank (i : nat) (x : bool * str) : str := if fst x && negb (Nat.eqb i 0) then chLF :: snd x else snd x.
Fixpoint blanks (i : nat) (l : list (bool * str)) : list (bool * str) :=
  match l with [] => [] | x :: l' => (fst x, with_blank i x) :: blanks (S i) l' end.
Definition assemble (l : list (bool * str)) : str := List.concat (dicts_last (blanks 0 l)).
(** Elements of an array of tables: a blank line after each nonempty one. *)
Fixpoint elements (blank : bool) (l : list (bool * str)) : str :=
  match l with [] => [] | (ne, s) :: l' => (if blank then [chLF] else []) ++ s ++ elements ne l' end.
Definition nonemptyb {A} (l : list A) : bool := match l with [] => false | _ => true end.

(** The tables of a value stored under [path]. *)
Fixpoint ttext (path : list str) (v : pyv) {struct v} : str :=
  let entry := fun kv : str * pyv => match kv with (k, x) =>
                 if tablish x then (true, ttext (path ++ [k]) x) else (false, key1 k ++ L " = " ++ vtext false x ++ [chLF]) end in
  match v with
  | PDict kvs => (if superb v then [] else hdr false path) ++ assemble (map entry kvs)
  | PList l => elements false (map (fun d => match d with
       | PDict kvs => (nonemptyb kvs, hdr true path
            ++ assemble (dicts_last (map (fun kv : str * pyv => match kv with (k, x) => (is_dict x, entry (k, x)) end) kvs)))
       | _ => (false, []) end) l)
  | _ => []
  end.
Definition entry (path : list str) (kv : str * pyv) : bool * str :=
  match kv with (k, x) => if tablish x then (true, ttext (path ++ [k]) x) else (false, key1 k ++ L " = " ++ vtext false x ++ [chLF]) end.
(** The document. *)
Definition doc_text (kvs : list (str * pyv)) : str := assemble (map (entry []) kvs).
