(** Mapping: the methods that documents and tables have from collections.abc.MutableMapping (model, C51). *)
From Verif Require Import Base Items Container PyVal Lookup Edit.
Open Scope nat_scope.

(** _types.py:55-66 [_CustomDict(MutableMapping, dict)]; container.py:638-640 and items.py:1499-1501
    [setdefault].  [MEdit] is any of the other operations (Edit.v), so that they can be mixed. *)
Inductive mop :=
  | MPop (k : str) (default : option pyv)
  | MPopItem
  | MClear
  | MUpdate (kvs : list (str * pyv))   (* also [t |= kvs], _types.py:63-66 *)
  | MSetDefault (k : str) (v : pyv)
  | MEdit (o : eop).
(** What the method returns: nothing, [t[k]], the default given, a pair. *)
Inductive mret := RNone | RNode (n : node) | RGiven (v : pyv) | RPair (k : str) (n : node).
(** Exceptions that [except KeyError] catches: [NonExistentKey] is one (exceptions.py:187). *)
Definition is_key_error (e : exn) : bool := match e with NonExistentKeyE _ | KeyErrorE => true | _ => false end.
(** The table [doc[p1]...[pn]].  Simplification: it is looked up again before each step of a method;
    in the code the method holds it, and the lookup gives the same object.  Tables from dotted keys and
    tables scattered over the document are not considered. *)
Definition table_of (c : container) (p : list pstep) : res container :=
  match table_at None c p with Some (_, t) => Ok t | None => Err UnmodelledE end.
(** collections/abc.py [MutableMapping.popitem]: the first key (container.py:617-618, items.py:1512-1513 [__iter__]). *)
Definition popitem (c : container) (p : list pstep) : res (mret * container) :=
  let* t := table_of c p in
  match c_dict t with
  | [] => Err KeyErrorE
  | k :: _ => let* n := getitem t k in let* c' := edit_at None c p (EDel k) in Ok (RPair k n, c')
  end.
(** [MutableMapping.clear]: [popitem] until it raises KeyError; [n] bounds the number of steps. *)
Fixpoint clear_loop (n : nat) (c : container) (p : list pstep) : res container :=
  match n with
  | 0 => Err FuelE
  | S n => match popitem c p with Ok (_, c') => clear_loop n c' p | Err e => if is_key_error e then Ok c else Err e end
  end.
(** [MutableMapping.update]: [self[key] = value], one after the other. *)
Fixpoint update (c : container) (p : list pstep) (kvs : list (str * pyv)) : res container :=
  match kvs with [] => Ok c | (k, v) :: kvs => let* c' := edit_at None c p (ESet k v) in update c' p kvs end.
Definition method (c : container) (p : list pstep) (o : mop) : res (mret * container) :=
  let* t := table_of c p in
  match o with
  | MPop k dv =>
      match getitem t k with
      | Ok n => let* c' := edit_at None c p (EDel k) in Ok (RNode n, c')
      | Err e => if is_key_error e then match dv with Some v => Ok (RGiven v, c) | None => Err e end else Err e
      end
  | MPopItem => popitem c p
  | MClear => let* c' := clear_loop (S (List.length (c_dict t))) c p in Ok (RNone, c')
  | MUpdate kvs => let* c' := update c p kvs in Ok (RNone, c')
  | MSetDefault k v =>
      let* c' := match getitem t k with Ok _ => Ok c | Err e => if is_key_error e then edit_at None c p (ESet k v) else Err e end in
      let* t' := table_of c' p in
      let* n := getitem t' k in Ok (RNode n, c')
  | MEdit o => let* c' := edit_at None c p o in Ok (RNone, c')
  end.
