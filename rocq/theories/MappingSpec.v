(** MappingSpec: specification for C51: what the dict methods do to a dict, and where they may be called. *)
From Verif Require Import Base Utils Items Container PyVal PyItem Lookup Edit Changes Possible Mapping.

(** The dict at [d[p1]...[pn]], all of whose neighbours stay, changes by [R]. *)
Inductive within (R : list (str * pyv) -> list (str * pyv) -> Prop) : list pstep -> list (str * pyv) -> list (str * pyv) -> Prop :=
  | wi_here d d' : R d d' -> within R [] d d'
  | wi_key k p a x x' b : ~ In k (map fst (a ++ b)) -> within R p x x' -> within R (Edit.Key k :: p) (a ++ (k, PDict x) :: b) (a ++ (k, PDict x') :: b)
  | wi_elem k p a l1 x x' l2 b : ~ In k (map fst (a ++ b)) -> within R p x x' ->
      within R (Edit.Key k :: Index (List.length l1) :: p) (a ++ (k, PList (l1 ++ PDict x :: l2)) :: b) (a ++ (k, PList (l1 ++ PDict x' :: l2)) :: b).
(** [d.update(kvs)]: the pairs are set in turn ([changed], Changes.v). *)
Inductive updated : list (str * pyv) -> list (str * pyv) -> list (str * pyv) -> Prop :=
  | up_nil d : updated [] d d
  | up_cons k v kvs d d1 d2 : changed (ESet k v) d d1 -> updated kvs d1 d2 -> updated ((k, v) :: kvs) d d2.
(** What a method returns, in Python values. *)
Inductive pret := PNone | PVal (v : pyv) | PPair (k : str) (v : pyv).
(** The methods of a Python dict: [d.pop(k)], [d.pop(k, v)], [d.popitem()] (some pair: see [C51_refuted] for the order),
    [d.clear()], [d.update(kvs)], [d.setdefault(k, v)]. *)
Inductive method_means : mop -> list (str * pyv) -> pret -> list (str * pyv) -> Prop :=
  | mm_pop k dv v a b : ~ In k (map fst (a ++ b)) -> method_means (MPop k dv) (a ++ (k, v) :: b) (PVal v) (a ++ b)
  | mm_default k v d : ~ In k (map fst d) -> method_means (MPop k (Some v)) d (PVal v) d
  | mm_popitem k v a b : ~ In k (map fst (a ++ b)) -> method_means MPopItem (a ++ (k, v) :: b) (PPair k v) (a ++ b)
  | mm_clear d : method_means MClear d PNone []
  | mm_update kvs d d' : updated kvs d d' -> method_means (MUpdate kvs) d PNone d'
  | mm_there k v v' a b : ~ In k (map fst (a ++ b)) -> method_means (MSetDefault k v) (a ++ (k, v') :: b) (PVal v') (a ++ (k, v') :: b)
  | mm_new k v v' a b : ~ In k (map fst (a ++ b)) -> pyeq v v' -> method_means (MSetDefault k v) (a ++ b) (PVal v') (a ++ (k, v') :: b)
  | mm_edit o d d' : changed o d d' -> method_means (MEdit o) d PNone d'.
(** What is returned is equal to the Python value. *)
Definition node_unwrap (n : node) : option pyv := match n with ATable c => option_map PDict (unwrap_cont c) | AValue it => unwrap it end.
Inductive returned : mret -> pret -> Prop :=
  | rt_none : returned RNone PNone
  | rt_node n u v : node_unwrap n = Some u -> pyeq u v -> returned (RNode n) (PVal v)
  | rt_given v : returned (RGiven v) (PVal v)
  | rt_pair k n u v : node_unwrap n = Some u -> pyeq u v -> returned (RPair k n) (PPair k v).
(** Where they may be called, in the table [t] (or document) that the indices lead to: a table without a header of its own
    keeps a key; the pairs of [update] can be assigned, each in its turn (Possible.v); so can the default. *)
Definition method_ok (c : container) (p : list pstep) (headless : bool) (t : container) (o : mop) : Prop :=
  match o with
  | MPop k dv => (In k (c_dict t) /\ (headless = true -> exists x, In x (c_dict t) /\ x <> k)) \/ (absent t k /\ dv <> None)
  | MPopItem => c_dict t <> [] /\ (headless = true -> List.length (c_dict t) <> 1%nat)
  | MClear => headless = false
  | MUpdate kvs => possible c (map (fun kv => (p, ESet (fst kv) (snd kv))) kvs)
  | MSetDefault k v => absent t k -> possible_op p headless t (ESet k v)
  | MEdit o => possible_op p headless t o
  end.
(** The calls in turn, with what they return. *)
Fixpoint methods (c : container) (ms : list (list pstep * mop)) : res (list mret * container) :=
  match ms with
  | [] => Ok ([], c)
  | (p, o) :: ms => let* rc := method c p o in let* rs := methods (snd rc) ms in Ok (fst rc :: fst rs, snd rs)
  end.
Fixpoint methods_ok (c : container) (ms : list (list pstep * mop)) : Prop :=
  match ms with
  | [] => True
  | (p, o) :: ms => (exists m t, table_at None c p = Some (m, t) /\ method_ok c p (headless m) t o) /\ forall r c', method c p o = Ok (r, c') -> methods_ok c' ms
  end.
Inductive methods_mean : list (list pstep * mop) -> list (str * pyv) -> list pret -> list (str * pyv) -> Prop :=
  | ms_nil d : methods_mean [] d [] d
  | ms_cons p o ms d d1 d2 r rs : within (fun x x' => method_means o x r x') p d d1 -> methods_mean ms d1 rs d2 -> methods_mean ((p, o) :: ms) d (r :: rs) d2.
