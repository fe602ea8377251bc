(** Property C27: [tomlkit.parse(tomlkit.dumps(d))] is [d] again. *)
From Verif Require Import Base Source Utils Items Container Parser Lemmas PyVal PyItem Render DumpText DumpValue DumpDoc DumpTop DumpRender.

(** Specification. [py_fine] (DumpValue.v): a nested value of dicts (no key twice),
    lists, strings, ints, floats, bools, and of the dates and times Python's
    [datetime] can hold.  [key_in k v]: some dict inside [v] has the key [k]. *)
Inductive key_in (k : str) : pyv -> Prop :=
  | ki_here x kvs : In (k, x) kvs -> key_in k (PDict kvs)
  | ki_dict k' x kvs : In (k', x) kvs -> key_in k x -> key_in k (PDict kvs)
  | ki_list x l : In x l -> key_in k x -> key_in k (PList l).
(** [loads(dumps(d)) == d] *)
Definition comes_back (kvs : list (str * pyv)) : Prop :=
  exists s c r, dumps kvs = Ok s /\ parse s = Ok c /\ unwrap_cont c = Some r /\ pyeq (PDict kvs) (PDict r).

(** [dumps] never fails, and writes the text [doc_text] (DumpText.v), which is a
    direct function of the dict. *)
Theorem C27_dumps : forall kvs, py_ok (PDict kvs) -> dumps kvs = Ok (doc_text kvs).
Proof. exact dumps_text. Qed.
Print Assumptions C27_dumps.

Lemma ebad_key s v : (In s (ebad v) -> key_in s v) /\ (match v with PDict kvs => In s (bodyb kvs) -> key_in s v | _ => True end).
Proof.
  induction v as [ | | | | | | |l IH|kvs IH] using pyv_rect2; try (split; [intros []|exact I]).
  - split; [|exact I]. cbn [ebad]. destruct (tablish (PList l)); [|intros []]. intros H. apply in_flat_map in H as (d & Hd & H). rewrite Forall_forall in IH. specialize (IH _ Hd).
    destruct d as [ | | | | | | | |kvs]; try destruct H. apply (ki_list s _ l Hd). apply IH, H.
  - assert (B : In s (bodyb kvs) -> key_in s (PDict kvs)).
    { intros H. apply in_flat_map in H as ([k x] & Hx & H). rewrite Forall_forall in IH. specialize (IH _ Hx). cbn [snd] in IH. apply in_app_or in H as [H|H]; [|apply (ki_dict s k x kvs Hx), IH, H].
      destruct (multi x); [|destruct H]. destruct H as [->|[]]. exact (ki_here s x kvs Hx). }
    split; [|exact B]. cbn [ebad]. destruct (superb (PDict kvs)); [|exact B]. destruct kvs as [|[k x] [|? ?]]; try (intros []). intros H. apply Forall_inv in IH. apply (ki_dict s k x [(k, x)]); [left; reflexivity|]. apply IH, H.
Qed.

(** C27 for every dict, except those with a top-level array of dicts whose own key
    is used again inside it ([C27_refuted] shows that such a dict can come
    back wrong). *)
Theorem C27_partial : forall kvs, py_fine (PDict kvs) ->
  (forall k l, In (k, PList l) kvs -> ~ key_in k (PList l)) -> comes_back kvs.
Proof.
  intros kvs H K. destruct (reads_back kvs H) as (c & r & E & U & Q).
  - intros k d ds d' Hin _ Hd Hb. apply (K k (d :: ds) Hin). apply (ki_list k (PDict d') (d :: ds)); [right; exact Hd|]. exact (proj2 (ebad_key k (PDict d')) Hb).
  - exists (doc_text kvs), c, r. split; [apply dumps_text, fine_ok, H|]. auto.
Qed.
Print Assumptions C27_partial.

(** A wider class: only the keys of [bodyb] (DumpDoc.v) clash, those which stand, in
    an element after the first, before an array of at least two tables reached
    through dicts with no other entry. *)
Theorem C27_clash_partial : forall kvs, py_fine (PDict kvs) ->
  (forall k d ds d', In (k, PList (d :: ds)) kvs -> tablish (PList (d :: ds)) = true -> In (PDict d') ds -> ~ In k (bodyb d')) ->
  comes_back kvs.
Proof.
  intros kvs H K. destruct (reads_back kvs H K) as (c & r & E & U & Q). exists (doc_text kvs), c, r. split; [apply dumps_text, fine_ok, H|]. auto.
Qed.
Print Assumptions C27_clash_partial.

Ltac fine := repeat first [apply pf_dict; cbn [map fst snd] | apply pf_list | apply pf_scalar; exact I | apply Forall_nil | apply Forall_cons; cbn [snd]
  | apply NoDup_nil | apply NoDup_cons; [cbn [In]; intros X; repeat destruct X as [X|X]; discriminate || contradiction|]].
(** C27 as stated is false: [{"a": [{}, {"a": {"c": [{}, {}]}}]}] is written as four
    headers which are read as something else. *)
Definition C27_bad : list (str * pyv) := [(L "a", PList [PDict []; PDict [(L "a", PDict [(L "c", PList [PDict []; PDict []])])]])].
Theorem C27_refuted : py_fine (PDict C27_bad) /\ ~ comes_back C27_bad.
Proof.
  split; [fine|].
  intros (s & c & r & E1 & E2 & E3 & Q). assert (D : dumps C27_bad = Ok (L "[[a]]
[[a]]
[[a.a.c]]
[[a.a.c]]
")) by (vm_compute; reflexivity).
  rewrite D in E1. injection E1 as <-. clear D.
  assert (U : match parse (L "[[a]]
[[a]]
[[a.a.c]]
[[a.a.c]]
") with Ok c => unwrap_cont c | Err _ => None end = Some [(L "a", PList [PDict []; PDict [(L "a", PList [PDict [(L "c", PList [PDict []])]; PDict [(L "c", PList [PDict []])]])]])]) by (vm_compute; reflexivity).
  rewrite E2 in U. rewrite U in E3. injection E3 as <-. clear U E2.
  inversion Q as [| | |l l1 l' P F]; subst. apply Permutation.Permutation_length_1_inv in P. subst l1. inversion F as [|? ? ? ? [_ F1] _]; subst. cbn [snd] in F1.
  inversion F1 as [| |? ? F2| ]; subst. inversion F2 as [|? ? ? ? _ F3]; subst. inversion F3 as [|? ? ? ? F4 _]; subst.
  inversion F4 as [| | |? l1 ? P G]; subst. apply Permutation.Permutation_length_1_inv in P. subst l1. inversion G as [|? ? ? ? [_ G1] _]; subst. cbn [snd] in G1. inversion G1.
Qed.
Print Assumptions C27_refuted.

Fixpoint key_inb (k : str) (v : pyv) : bool :=
  match v with
  | PDict kvs => existsb (fun kv : str * pyv => match kv with (k', x) => str_eqb k k' || key_inb k x end) kvs
  | PList l => existsb (key_inb k) l
  | _ => false
  end.
Lemma key_inb_true k v : key_in k v -> key_inb k v = true.
Proof.
  induction 1 as [x kvs H|k' x kvs H _ IH|x l H _ IH]; cbn [key_inb]; apply existsb_exists.
  - exists (k, x). split; [exact H|]. assert (E : str_eqb k k = true) by (apply str_eqb_eq; reflexivity). rewrite E. reflexivity.
  - exists (k', x). split; [exact H|]. rewrite IH. apply orb_true_r.
  - exists x. auto.
Qed.
(** The class of [C27_partial] contains dicts with tables, arrays of tables, inline
    tables and nesting. *)
Definition C27_sample : list (str * pyv) :=
  [(L "t", PDict [(L "x", PInt 1); (L "u", PDict [(L "v w", PList [PDict [(L "q", PBool true)]])])]);
   (L "a.b", PList [PInt 1; PList [PStr (L "s")]; PDict [(L "d", PDict []); (L "k", PBool true)]]);
   (L "aot", PList [PDict [(L "sub", PDict [(L "q", PFloat (FDec true 15 (-1)))]); (L "y", PInt 2)]; PDict []; PDict [(L "l", PList [PDict []; PDict []])]])].
Example C27_example : comes_back C27_sample /\ dumps C27_sample = Ok (L """a.b"" = [1, [""s""], {k = true, d = {}}]
[t]
x = 1

[[t.u.""v w""]]
q = true

[[aot]]
y = 2

[aot.sub]
q = -1.5

[[aot]]
[[aot]]
[[aot.l]]
[[aot.l]]
").
Proof.
  split; [apply C27_partial|vm_compute; reflexivity].
  - fine.
  - intros k l H K. apply key_inb_true in K. cbn in H. repeat destruct H as [H|H]; try discriminate H; try contradiction; injection H as <- <-; vm_compute in K; discriminate K.
Qed.
