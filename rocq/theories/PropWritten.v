(** Property C42: what [tomlkit.item] writes for a Python value is TOML for that value. *)
From Verif Require Import Base Utils Items Container Parser PyVal PyItem Numbers Dates ListSpec ArrayLemmas ArrayTidy Arrays DumpText DumpValue DumpRender Denote CompValue Written PropArrays PropReread.

(** [item] turns a dict, and a nonempty list of dicts, into tables; every other value,
    and everything inside an array or an inline table, is written on one line. *)
Definition on_a_line (pk : pkind_of) (v : pyv) : Prop :=
  pk_inline pk = true \/ match v with PDict _ => False | PList (x :: l) => exists y, In y (x :: l) /\ is_dict y = false | _ => True end.
Lemma on_line pk v : on_a_line pk v -> pk_inline pk = true \/ tablish v = false.
Proof.
  intros [H|H]; [left; exact H|right]. destruct v as [ | | | | | | |[|x l]|]; try reflexivity; [|destruct H]. destruct H as (y & Hy & D). cbn [tablish].
  destruct (forallb is_dict (x :: l)) eqn:E; [|reflexivity]. rewrite forallb_forall in E. rewrite (E y Hy) in D. discriminate.
Qed.

(** C42.  For every Python value (dicts without repeated keys, the dates and times
    Python can hold): [item] succeeds, and the text of the item stands for a value
    equal to the original by the definition of TOML (Denote.v, no parser involved).
    So [tomlkit.value] reads it back as that value. *)
Theorem C42_item : forall pk v, py_fine v -> on_a_line pk v ->
  exists i v', py_item pk v = Ok i /\ denotes (item_string i) v' /\ pyeq v v' /\ exists it, value_of (item_string i) = Ok it /\ unwrap it = Some v'.
Proof.
  intros pk v H O. destruct (proj1 (proj1 (all_made v (fine_ok v H))) pk (on_line pk v O)) as (i & E & _ & T). destruct (value_written v H false) as (v' & D & Q).
  rewrite <- T in D. exists i, v'. split; [exact E|]. split; [exact D|]. split; [exact Q|apply denotes_value, D].
Qed.
Print Assumptions C42_item.

(** The item an array makes of a Python value given to it (items.py:1339, 1384). *)
Definition as_item (v : pyv) : item := match py_item PkArray v with Ok i => i | Err _ => INull end.
Definition lmap {A B} (f : A -> B) (o : lop A) : lop B :=
  match o with
  | LAppend x => LAppend (f x) | LExtend xs => LExtend (map f xs) | LInsert i x => LInsert i (f x) | LSet i x => LSet i (f x)
  | LDel i => LDel i | LPop i => LPop i | LClear => LClear | LReverse => LReverse
  end.
Lemma lstep_map {A B} (f : A -> B) l o : lstep (map f l) (lmap f o) = option_map (map f) (lstep l o).
Proof.
  destruct o; cbn [lstep lmap option_map]; rewrite ?map_length; rewrite ?map_app, ?map_rev; try reflexivity; try (cbn [map]; rewrite ?firstn_map, ?skipn_map; reflexivity);
    destruct (py_index (List.length l) i) as [p|]; cbn [option_map]; [|reflexivity| |reflexivity| |reflexivity]; rewrite map_app; cbn [map]; rewrite ?firstn_map, ?skipn_map; reflexivity.
Qed.
Lemma lrun_map {A B} (f : A -> B) os : forall l, lrun (map f l) (map (lmap f) os) = map f (lrun l os).
Proof. induction os as [|o os IH]; intros l; [reflexivity|]. cbn [map lrun]. rewrite lstep_map. destruct (lstep l o); cbn [option_map]; apply IH. Qed.
Lemma in_skipn {A} (x : A) n l : In x (skipn n l) -> In x l.
Proof. intros H. rewrite <- (firstn_skipn n l). apply in_or_app. right. exact H. Qed.
Lemma in_firstn {A} (x : A) n l : In x (firstn n l) -> In x l.
Proof. intros H. rewrite <- (firstn_skipn n l). apply in_or_app. left. exact H. Qed.
Lemma lrun_forall {A} (P : A -> Prop) os : Forall (fun o => Forall P (lop_values o)) os -> forall l, Forall P l -> Forall P (lrun l os).
Proof.
  induction 1 as [|o os H _ IH]; intros l F; [exact F|]. cbn [lrun]. apply IH. destruct (lstep l o) as [l'|] eqn:E; [|exact F].
  assert (A1 : forall p, Forall P (firstn p l)) by (intros p; rewrite Forall_forall in F |- *; intros x Hx; apply F; eapply in_firstn; exact Hx).
  assert (A2 : forall p, Forall P (skipn p l)) by (intros p; rewrite Forall_forall in F |- *; intros x Hx; apply F; eapply in_skipn; exact Hx).
  destruct o; cbn [lstep lop_values] in *; try (destruct (py_index (List.length l) i); cbn [option_map] in E; [|discriminate]); injection E as <-;
    try apply Forall_nil; try (apply Forall_rev; exact F); apply Forall_app; (split; [auto|]); auto; try exact (A2 (S _)); apply Forall_cons; auto; try exact (A2 (S _)); exact (Forall_inv H).
Qed.
Lemma as_item_fine v : py_fine v -> real (as_item v) /\ exists v', denotes (item_string (as_item v)) v' /\ pyeq v v'.
Proof.
  intros H. destruct (proj1 (proj1 (all_made v (fine_ok v H))) PkArray (or_introl eq_refl)) as (i & E & [Hp _] & T). unfold as_item. rewrite E. split; [destruct i; try destruct Hp; exact I|].
  destruct (value_written v H false) as (v' & D & Q). rewrite T. exists v'. split; assumption.
Qed.
(** An array made by any history of list operations with Python values reads back as
    the list those operations make. *)
Theorem C42_edits : forall os : list (lop pyv), Forall (fun o => Forall py_fine (lop_values o)) os ->
  exists vs, Forall2 pyeq (lrun [] os) vs /\ rereads (arr_string (arr_run arr_empty (map (lmap as_item) os))) vs.
Proof.
  intros os H. pose proof (lrun_forall py_fine os H [] (Forall_nil _)) as F. pose proof (lrun_map as_item os []) as E. cbn [map] in E.
  assert (X : exists vs, Forall2 pyeq (lrun [] os) vs /\ Forall2 denotes (map item_string (map as_item (lrun [] os))) vs).
  { clear E. induction F as [|v l Hv F (vs & Q & D)]; [exists []; split; constructor|]. destruct (as_item_fine v Hv) as (_ & v' & D' & Q'). exists (v' :: vs). split; constructor; assumption. }
  destruct X as (vs & Q & D). exists vs. split; [exact Q|]. apply C41_created; [|rewrite E; exact D].
  unfold values_only. apply Forall_map. eapply Forall_impl; [|exact H]. intros o Ho. assert (R : Forall (fun v => real (as_item v)) (lop_values o)) by (eapply Forall_impl; [|exact Ho]; intros v Hv; apply (proj1 (as_item_fine v Hv))).
  destruct o; cbn [lop_values lmap] in *; try constructor; try (apply Forall_inv in R; exact R); try constructor. apply Forall_map. exact R.
Qed.
Print Assumptions C42_edits.
Definition C42_ops : list (lop pyv) :=
  [LAppend (PStr (L "a""b")); LExtend [PInt (-7); PBool true]; LInsert 0 (PDict [(L "k 1", PFloat (FDec false 15 (-1))); (L "d", PDict [])]); LDel 2; LReverse; LAppend (PDate (mkDate 1979 5 27))].
Example C42_example : Forall (fun o => Forall py_fine (lop_values o)) C42_ops
  /\ arr_string (arr_run arr_empty (map (lmap as_item) C42_ops)) = L "[true,""a\""b"", {""k 1"" = 1.5,d = {}}, 1979-05-27]".
Proof.
  split.
  - repeat (apply Forall_cons; cbn [lop_values]); try apply Forall_nil; repeat (apply Forall_cons || apply Forall_nil); try (apply pf_scalar; exact I).
    + apply pf_dict; [repeat constructor; cbn; intros X; repeat destruct X as [X|X]; discriminate || contradiction|].
      repeat (apply Forall_cons || apply Forall_nil); cbn [snd]; [apply pf_scalar; exact I|apply pf_dict; constructor].
    + apply pf_scalar. apply (valid_date_iff (mkDate 1979 5 27)). reflexivity.
  - vm_compute. reflexivity.
Qed.
