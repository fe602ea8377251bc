(** RawSpec: specification for C53: the dict that a key and a value stand for. *)
From Verif Require Import Base PyVal.
Fixpoint nest (names : list str) (v : pyv) : list (str * pyv) :=
  match names with
  | [] => []
  | [k] => [(k, v)]
  | k :: names => [(k, PDict (nest names v))]
  end.
