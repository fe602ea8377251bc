(** Copy: [copy.deepcopy], [pickle] and [copy.copy] of documents and items.
    [copy.deepcopy(x)] and [pickle.loads(pickle.dumps(x))] call [x.__reduce_ex__] and
    build a new object from (deep copies of) what it returns: a constructor call and,
    for containers, a [__setstate__].
    Simplification: keys, trivia and metadata are plain data and are copied as they are. *)
From Verif Require Import Base Utils Items Container Arrays.

(** items.py:1113-1116 [_ArrayItemGroup.__iter__], 1193-1195 [_iter_items]: the parts of
    a group, as elements for [Array.__init__]. *)
Definition elem_of (i : item) : aelem := match i with IWs s _ => EWs s | IComment t => EComment t | _ => EVal i end.
Definition group_elems (g : agroup item) : list aelem :=
  (match g_indent g with Some s => [EWs s] | None => [] end) ++ (match g_value g with Some v => [elem_of v] | None => [] end)
  ++ (match g_comma g with Some s => [EWs s] | None => [] end) ++ (match g_comment g with Some t => [EComment t] | None => [] end).
Definition regroup (gs : list (agroup item)) : list (agroup item) := group_values (flat_map group_elems gs).

(** container.py:740-751 [__setstate__]: the dict is made from the body. *)
Definition dict_of (body : list (option skey * item)) : list str :=
  fold_left (fun d (kv : option skey * item) => match fst kv with Some k => dict_set (k_key k) d | None => d end) body [].

(** items.py:525-533 [__reduce_ex__] and the [_getstate] methods (571-572, 638-639, 791-792,
    949-961, 1021-1022, 1086-1095, 1428-1429, 1676-1684, 1775-1776, 1818-1819, 1940-1941,
    1966-1967); container.py:730-751.  The [_new] flag of an inline table and the trivia of an
    array of tables are not part of the state; the constructor of an array of
    tables appends the tables again (items.py:1840-1850). *)
Fixpoint copy_item (i : item) : item :=
  match i with
  | IWs _ _ | IComment _ | INull | IVal _ _ => i
  | IArray gs t ml =>
      IArray (regroup (map (fun g => match g with mkGroup ind v com cmt => mkGroup ind (match v with Some x => Some (copy_item x) | None => None end) com cmt end) gs)) t ml
  | IInline c t _ => IInline (copy_cont c) t false
  | ITable c m => ITable (copy_cont c) m
  | IAoT l n p _ => aot_make (map (fun x => match x with (c, m) => (copy_cont c, m) end) l) n p
  end
with copy_cont (c : container) : container :=
  match c with
  | Cont body m p tks _ =>
      let body' := map (fun kv => match kv with (k, v) => (k, copy_item v) end) body in Cont body' m p tks (dict_of body')
  end.

(** container.py:753-765 [Container.copy], [__copy__]: a shallow copy; [_table_keys] is not copied. *)
Definition shallow_copy (c : container) : container := let 'Cont body m p _ d := c in Cont body m p [] d.
