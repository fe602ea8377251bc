(** Lookup: [doc[k1][k2]...] (model). *)
From Verif Require Import Base Items Container.
Open Scope N_scope.

(** What a key leads to: a table (or the view over the parts of an out-of-order
    table), or any other item.  Simplification: [Container.__getitem__] returns the
    Python bool of a boolean item (container.py:621-626); the item is kept here. *)
Inductive node := ATable (c : container) | AValue (it : item).
(** container.py:457-472 [Container.item], for a str key; a Table answers from its
    container (items.py:1521-1522 [AbstractTable.__getitem__]), the view of
    out-of-order tables from its internal container (container.py:816-820). *)
Definition getitem (c : container) (k : str) : res node :=
  match map_get k (c_map c) with
  | None => Err (NonExistentKeyE k)
  | Some (Many l) => let* ic := proxy (app_fuel c None INull) c l in Ok (ATable ic)
  | Some (One i) =>
      match nth_error (c_body c) i with
      | Some (_, ITable tc _) => Ok (ATable tc)
      | Some (_, it) => Ok (AValue it)
      | None => Err IndexErrorE
      end
  end.
(** [doc[k1][k2]...]: the table reached, or the first value on the way with the
    keys still to be looked up in it. *)
Inductive found := FTable (c : container) | FValue (it : item) (rest : list str).
Fixpoint walk (c : container) (p : list str) : res found :=
  match p with
  | [] => Ok (FTable c)
  | k :: r =>
      let* n := getitem c k in
      match n with
      | ATable c' => walk c' r
      | AValue it => Ok (FValue it r)
      end
  end.
