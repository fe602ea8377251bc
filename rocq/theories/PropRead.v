(** C33: reading a document does not change it.

    [h_doc c] puts the document [c] in a heap of objects; [h_reads] performs any
    number of look-ups ([t[k]], [k in t], [aot[i]], the steps of iteration over
    values and of [unwrap]) on any objects of that heap, including the objects
    obtained by earlier look-ups, whether they succeed or raise; [h_text] is
    [as_string()] of the document afterwards. *)
From Verif Require Import Base Source Utils Items Container Arrays Parser Heap HeapLemmas.
Open Scope nat_scope.

(** For a document in which no two parts of one out-of-order table define the same
    sub-key ([disjoint_parts]; in particular for every document without out-of-order
    tables) no history of reads changes the text.  Missing: documents in which two
    parts do share a sub-key, for which the claim is false (below). *)
Theorem C33_reading_partial : forall fuel ops c,
  disjoint_parts (snd (h_doc c)) ->
  exists n, forall n', n <= n' ->
    h_text n' (h_reads fuel ops (snd (h_doc c))) (fst (h_doc c)) = Some (cont_string c).
Proof. exact reading. Qed.
Print Assumptions C33_reading_partial.

(** Nothing else in the heap changes either: reading only adds objects. *)
Theorem C33_objects_partial : forall fuel ops c,
  disjoint_parts (snd (h_doc c)) -> exists added, h_reads fuel ops (snd (h_doc c)) = snd (h_doc c) ++ added.
Proof. intros fuel ops c D. apply reads_ok. split; [apply doc_ok|exact D]. Qed.
Print Assumptions C33_objects_partial.

Definition lf : str := [10]%N.
(** A deciding function for [disjoint_parts], for the examples. *)
Fixpoint nodupb (l : list str) : bool := match l with [] => true | x :: l' => negb (existsb (str_eqb x) l') && nodupb l' end.
Definition disjointb (h : heap) : bool :=
  forallb (fun c => match c with
                    | HTable c _ => forallb (fun kv => match snd kv with Many l => nodupb (flat_map (part_keys h c) l) | One _ => true end) (hc_map c)
                    | _ => true end) h.
Lemma nodupb_ok l : nodupb l = true -> NoDup l.
Proof.
  induction l as [|x l IH]; intros E; constructor; simpl in E; apply andb_prop in E as [N R]; auto.
  intros I. apply Bool.negb_true_iff in N. assert (X : existsb (str_eqb x) l = true); [|congruence].
  apply existsb_exists. exists x. split; auto. apply Lemmas.str_eqb_refl.
Qed.
Lemma map_get_in k m v : map_get k m = Some v -> In v (map snd m).
Proof. induction m as [|[a b] m IH]; simpl; [discriminate|]. destruct (str_eqb k a); [intros [= ->]; left; auto|right; auto]. Qed.
Lemma disjointb_ok h : disjointb h = true -> disjoint_parts h.
Proof.
  unfold disjointb. rewrite forallb_forall. intros F t c m k l E G. apply nth_error_In in E. apply F in E. simpl in E.
  rewrite forallb_forall in E. apply map_get_in in G. apply in_map_iff in G as ([a b] & Q & I). apply E in I. simpl in Q. subst b. simpl in I.
  apply nodupb_ok. exact I.
Qed.

(** An out-of-order table: the hypothesis holds, the look-ups build proxies, and the
    value read through them is the right one. *)
Definition doc_ooo : str := L "[a.b]" ++ lf ++ L "k = 1" ++ lf ++ L "[x]" ++ lf ++ L "[a.c]" ++ lf ++ L "j = 2" ++ lf.
Example C33_ex : exists c r1 r2 h1 h2,
  parse doc_ooo = Ok c /\ disjoint_parts (snd (h_doc c)) /\
  h_get 20 (fst (h_doc c)) (L "a") (snd (h_doc c)) = (Ok r1, h1) /\ h1 <> snd (h_doc c) /\
  h_get 20 r1 (L "c") h1 = (Ok r2, h2) /\ h_text 20 h2 r2 = Some (L "j = 2" ++ lf) /\ cont_string c = doc_ooo.
Proof.
  destruct (parse doc_ooo) as [c|] eqn:E; [|vm_compute in E; discriminate].
  vm_compute in E. injection E as <-. do 5 eexists. split; [reflexivity|]. split; [apply disjointb_ok; vm_compute; reflexivity|].
  split; [vm_compute; reflexivity|]. split; [vm_compute; discriminate|]. split; [vm_compute; reflexivity|]. split; vm_compute; reflexivity.
Qed.

(** Refuted in general: reading the key [a] of this document (accepted, rendered
    without change) puts a blank line into the document. *)
Definition doc_merge : str := L "[a.b.c]" ++ lf ++ L "[x]" ++ lf ++ L "[a.b.d]" ++ lf.
Theorem C33_blank_line_refuted : exists c,
  parse doc_merge = Ok c /\ h_text 20 (snd (h_doc c)) (fst (h_doc c)) = Some doc_merge /\
  h_text 20 (h_reads 20 [RGet (fst (h_doc c)) (L "a")] (snd (h_doc c))) (fst (h_doc c))
    = Some (L "[a.b.c]" ++ lf ++ L "[x]" ++ lf ++ lf ++ L "[a.b.d]" ++ lf).
Proof.
  destruct (parse doc_merge) as [c|] eqn:E; [|vm_compute in E; discriminate].
  vm_compute in E. injection E as <-. eexists. split; [reflexivity|]. split; vm_compute; reflexivity.
Qed.
Print Assumptions C33_blank_line_refuted.

(** Reading can also respell a table header. *)
Definition doc_spell : str := L "[a.b.c]" ++ lf ++ L "[x]" ++ lf ++ lf ++ L "[ a . b . d ]" ++ lf.
Theorem C33_header_refuted : exists c,
  parse doc_spell = Ok c /\ h_text 20 (snd (h_doc c)) (fst (h_doc c)) = Some doc_spell /\
  h_text 20 (h_reads 20 [RGet (fst (h_doc c)) (L "a")] (snd (h_doc c))) (fst (h_doc c)) <> Some doc_spell.
Proof.
  destruct (parse doc_spell) as [c|] eqn:E; [|vm_compute in E; discriminate].
  vm_compute in E. injection E as <-. eexists. split; [reflexivity|]. split; vm_compute; [reflexivity|discriminate].
Qed.
Print Assumptions C33_header_refuted.

(** An array of tables in two parts of an out-of-order table: every look-up (the
    validation made by [parse] is one) appends the tables of the second part to the
    first part once more. *)
Definition aot_doc : res container :=
  let* c := parse (L "[[a.b]]" ++ lf ++ L "[c]" ++ lf) in
  let* c2 := parse (L "[[a.b]]" ++ lf) in
  match c_body c2 with (k, t) :: _ => raw_append c k t | [] => Err IndexErrorE end.
Theorem C33_aot_refuted : exists c,
  aot_doc = Ok c /\ cont_string c = L "[[a.b]]" ++ lf ++ L "[c]" ++ lf ++ L "[[a.b]]" ++ lf /\
  let r := fst (h_doc c) in
  h_text 20 (h_reads 20 [RGet r (L "a")] (snd (h_doc c))) r
    = Some (L "[[a.b]]" ++ lf ++ L "[[a.b]]" ++ lf ++ L "[c]" ++ lf ++ L "[[a.b]]" ++ lf) /\
  h_text 20 (h_reads 20 [RGet r (L "a"); RGet r (L "a")] (snd (h_doc c))) r
    = Some (L "[[a.b]]" ++ lf ++ L "[[a.b]]" ++ lf ++ L "[[a.b]]" ++ lf ++ L "[c]" ++ lf ++ L "[[a.b]]" ++ lf).
Proof.
  destruct aot_doc as [c|] eqn:E; [|vm_compute in E; discriminate].
  vm_compute in E. injection E as <-. eexists. split; [reflexivity|]. split; [vm_compute; reflexivity|]. split; vm_compute; reflexivity.
Qed.
Print Assumptions C33_aot_refuted.
