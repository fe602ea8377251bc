(** Property C28: Python values to items and back. *)
From Verif Require Import Base Utils Items Container PyVal PyItem ItemConv Unwrap.

(** C28: [tomlkit.item(v)] succeeds for every nested value of dicts (no key twice),
    lists, strings, ints, floats, bools, dates and times, and [unwrap()] returns
    an equal value ([pyeq], PyVal.v). *)
Theorem C28_item_unwrap : forall v, py_ok v ->
  exists i v', py_item PkNone v = Ok i /\ unwrap i = Some v' /\ pyeq v v'.
Proof. exact item_unwraps. Qed.
Print Assumptions C28_item_unwrap.

Definition C28_sample : pyv :=
  PDict [(L "t", PDict [(L "x", PInt 1)]); (L "a.b", PList [PInt 1; PList [PStr (L "s")]; PDict [(L "d", PDict []); (L "k", PBool true)]]);
         (L "aot", PList [PDict [(L "sub", PDict [(L "q", PFloat (FDec true 15 (-1)))]); (L "y", PInt 2)]; PDict []])].
Example C28_example : py_ok C28_sample /\ exists i, py_item PkNone C28_sample = Ok i
  /\ unwrap i = Some (PDict [(L "t", PDict [(L "x", PInt 1)]); (L "a.b", PList [PInt 1; PList [PStr (L "s")]; PDict [(L "k", PBool true); (L "d", PDict [])]]);
         (L "aot", PList [PDict [(L "y", PInt 2); (L "sub", PDict [(L "q", PFloat (FDec true 15 (-1)))])]; PDict []])])
  /\ item_string i = L """a.b"" = [1, [""s""], {k = true, d = {}}]
[t]
x = 1

[[aot]]
y = 2

[aot.sub]
q = -1.5

[[aot]]
".
Proof.
  split.
  - repeat (constructor; cbn [map fst snd In]; try (intros X; repeat destruct X as [X|X]; discriminate || contradiction)).
  - eexists. split; [vm_compute; reflexivity|]. split; vm_compute; reflexivity.
Qed.
