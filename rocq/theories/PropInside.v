(** Property C49: editing inside values: inline tables and arrays. *)
From Verif Require Unwrap ItemConv.
From Verif Require Import Base Utils Items Container Parser Api PyVal PyItem Wf ContOps Numbers Dates DumpValue Grammar Denote Snug CompValue Edit Changes Possible ListSpec ArrayLemmas ArrayText ArrayTidy MadeSnug InsideFacts.

(** The edits in turn: at [v[q1]...[qn]], the operation. *)
Fixpoint inside_all (it : item) (es : list (list pstep * iop)) : res item :=
  match es with
  | [] => Ok it
  | (q, o) :: es => let* it' := inside_item it q o in inside_all it' es
  end.
(** What they make of the value. *)
Inductive inside_history : list (list pstep * iop) -> pyv -> pyv -> Prop :=
  | ih_nil v : inside_history [] v v
  | ih_cons q o es v v1 v' : changed_inside q o v v1 -> inside_history es v1 v' -> inside_history ((q, o) :: es) v v'.
(** Each is possible when its turn comes: the indices lead through inline tables and arrays to an inline table,
    where a new key or one with a value is set, a key that is there is deleted, or a new one is added; or to
    an array, for a list operation that does not raise, and which is assignment, [clear()] or any other if the array is tidy. *)
Fixpoint possible_insides (it : item) (es : list (list pstep * iop)) : Prop :=
  match es with
  | [] => True
  | (q, o) :: es => (exists i, inside_at it q = Some i /\ possible_inside i o) /\ forall it', inside_item it q o = Ok it' -> possible_insides it' es
  end.

Local Lemma insides es : forall it v, snug it v -> possible_insides it es -> exists it' v', inside_all it es = Ok it' /\ inside_history es v v' /\ snug it' v'.
Proof.
  induction es as [|[q o] es IH]; intros it v Sn Po; [exists it, v; split; [reflexivity|split; [constructor|exact Sn]]|].
  destruct Po as ((i & Ia & Po) & Nx). destruct (inside_ok q it v i o Sn Ia Po) as (it1 & v1 & E & Sn1 & Ch). destruct (IH it1 v1 Sn1 (Nx it1 E)) as (it' & v' & E' & Hi & Sn').
  exists it', v'. cbn [inside_all]. rewrite E. split; [exact E'|]. split; [econstructor; eauto|exact Sn'].
Qed.

(** C49: let the text [w] be a TOML value standing for [v], and let [it = tomlkit.value(w)]; then edit the
    inline tables and the arrays in it, with the operations and in the order one likes.  Every edit succeeds; the new
    text is a TOML value (Denote.v: no parser, no printer); the value it stands for is the
    one the same edits make of [v], so that nothing else has changed; and reading the text again gives it.
    Missing: arrays that are not tidy (C22_refuted), and tables that dotted keys make (see below). *)
Theorem C49_edits_partial : forall w v it es, denotes w v -> value_of w = Ok it -> possible_insides it es ->
  exists it' v', inside_all it es = Ok it' /\ inside_history es v v' /\ denotes (item_string it') v' /\
    exists it2, value_of (item_string it') = Ok it2 /\ unwrap it2 = Some v'.
Proof.
  intros w v it es H E Po. pose proof (denotes_snug w v it H E) as Sn. destruct (insides es it v Sn Po) as (it' & v' & E' & Hi & Sn'). pose proof (snug_text it' v' Sn') as D.
  exists it', v'. split; [exact E'|]. split; [exact Hi|]. split; [exact D|apply denotes_value, D].
Qed.
Print Assumptions C49_edits_partial.

(** A case: an inline table with a comma after no space, a dotted key and an inline table in it; a value is
    replaced, pairs are added at both levels (the spaces are tomlkit's), the first is deleted,
    the dotted one too. *)
Definition C49_text : str := L "{ a = 1 ,b.c = 2, d = {e = 3} }".
Definition C49_value : pyv := PDict [(L "a", PInt 1); (L "b", PDict [(L "c", PInt 2)]); (L "d", PDict [(L "e", PInt 3)])].
Definition C49_read : item := match value_of C49_text with Ok it => it | Err _ => INull end.
Definition C49_list : list (list pstep * iop) :=
  [([], ISet (L "a") (PBool true)); ([Edit.Key (L "d")], ISet (L "f") (PDict [(L "x", PInt 1)])); ([Edit.Key (L "d"); Edit.Key (L "f")], IAdd (L "y") (PInt 2)); ([], IDel (L "b")); ([], IAdd (L "g h") (PStr (L "v")))].
Local Ltac bl := repeat (constructor; [unfold blank_c; auto|]); constructor.
Local Ltac bare := repeat (constructor; [right; left; split; vm_compute; discriminate|]); constructor.
Local Ltac name a w z := refine (nn_bare a w z _ _ _ _); [bl|discriminate|bare|bl].
Local Ltac int1 := apply dn_int; match goal with |- int_means ?w _ => refine (im_dec [] false w w _ _ _); [constructor| |right; reflexivity]; exists [w]; split; [split; [discriminate|repeat constructor; discriminate]|split; reflexivity] end.
Local Ltac eq_ := exists (L " "), (L " "); split; [reflexivity|split; bl].
Local Ltac no_key := vm_compute; intros X; repeat destruct X as [X|X]; discriminate || contradiction.
Local Ltac fine2 := repeat first [apply pf_dict; cbn [map fst snd] | apply pf_list | apply pf_scalar; exact I | apply Forall_nil | apply Forall_cons; cbn [snd]
  | apply NoDup_nil | apply NoDup_cons; [cbn [In]; intros X; repeat destruct X as [X|X]; discriminate || contradiction|]].
Example C49_example_text : denotes C49_text C49_value /\ value_of C49_text = Ok C49_read.
Proof.
  split; [|vm_compute; reflexivity].
  refine (dn_inline (L " a = 1 ,b.c = 2, d = {e = 3} ") [(L "a", Value (PInt 1)); (L "b", Names [(L "c", Value (PInt 2))]); (L "d", Value (PDict [(L "e", PInt 3)]))] _).
  refine (fd_more (L " ") (L "a") [L "a"] (L " = ") (L "1") (PInt 1) (L " ") (L "b.c = 2, d = {e = 3} ") [] _ _ _ _ _ _ _ (put_value (L "a") _ [] _) _); [bl|apply km_one; name (@nil char) (L "a") (@nil char)|eq_|int1|bl|intros []|].
  refine (fd_more [] (L "b.c") [L "b"; L "c"] (L " = ") (L "2") (PInt 2) [] (L " d = {e = 3} ") _ [(L "a", Value (PInt 1)); (L "b", Names [(L "c", Value (PInt 2))])] _ _ _ _ _ _ _ _); [bl| |eq_|int1|bl| |].
  - refine (km_dot (L "b") (L "b") (L "c") _ _ _); [|apply km_one]; [name (@nil char) (L "b") (@nil char)|name (@nil char) (L "c") (@nil char)].
  - apply (put_table (L "b") [L "c"] _ [(L "a", Value (PInt 1))]); [no_key|]. apply (put_value (L "c") _ []). intros [].
  - refine (fd_last (L " ") (L "d") [L "d"] (L " = ") (L "{e = 3}") (PDict [(L "e", PInt 3)]) (L " ") _ _ _ _ _ _ _ (put_value (L "d") _ _ _)); [bl|apply km_one; name (@nil char) (L "d") (@nil char)|eq_| |bl|no_key].
    refine (dn_inline (L "e = 3") [(L "e", Value (PInt 3))] _).
    refine (fd_last [] (L "e") [L "e"] (L " = ") (L "3") (PInt 3) [] _ _ _ _ _ _ _ (put_value (L "e") _ [] _)); [bl|apply km_one; name (@nil char) (L "e") (@nil char)|eq_|int1|bl|intros []].
Qed.
Example C49_example : possible_insides C49_read C49_list /\
  exists it', inside_all C49_read C49_list = Ok it' /\ item_string it' = L "{ a = true,  d = {e = 3,f = {x = 1, y = 2}},  ""g h"" = ""v""}".
Proof.
  split; [|eexists; split; [vm_compute; reflexivity|vm_compute; reflexivity]].
  repeat (split; [|intros c' E; vm_compute in E; injection E as <-]); try exact I; (eexists; split; [vm_compute; reflexivity|]).
  - split; [fine2|]. right. eexists. split; [vm_compute; reflexivity|exact I].
  - split; [fine2|]. left. no_key.
  - split; [fine2|]. no_key.
  - vm_compute. auto.
  - split; [fine2|]. no_key.
Qed.

(** The same for [t = tomlkit.inline_table()]: its text is a TOML value for the dict that the operations make of
    the empty one. *)
Theorem C49_new_partial : forall es, possible_insides inline_table es ->
  exists it' v', inside_all inline_table es = Ok it' /\ inside_history es (PDict []) v' /\ denotes (item_string it') v' /\
    exists it2, value_of (item_string it') = Ok it2 /\ unwrap it2 = Some v'.
Proof.
  intros es Po. assert (Sn : snug inline_table (PDict (dict_of []))) by (apply sg_inline; [apply empty_consistent|right; constructor|reflexivity|constructor]).
  destruct (insides es inline_table _ Sn Po) as (it' & v' & E' & Hi & Sn'). pose proof (snug_text it' v' Sn') as D.
  exists it', v'. split; [exact E'|]. split; [exact Hi|]. split; [exact D|apply denotes_value, D].
Qed.
Print Assumptions C49_new_partial.

(** A case: the last pair is deleted, so that its comma must go; then another comes. *)
Definition C49_calls : list (list pstep * iop) :=
  [([], IAdd (L "a") (PInt 1)); ([], ISet (L "b") (PDict [(L "x", PInt 1)])); ([], ISet (L "c") (PStr (L "v, "))); ([Edit.Key (L "b")], ISet (L "y") (PInt 2)); ([], IDel (L "c"))].
Example C49_new_example : possible_insides inline_table C49_calls /\
  (exists it', inside_all inline_table C49_calls = Ok it' /\ item_string it' = L "{a = 1, b = {x = 1,y = 2}}") /\
  (exists it', inside_all inline_table (C49_calls ++ [([], IAdd (L "d") (PInt 3)); ([], IDel (L "b"))]) = Ok it' /\ item_string it' = L "{a = 1, d = 3}").
Proof.
  split; [|split; (eexists; split; [vm_compute; reflexivity|vm_compute; reflexivity])].
  repeat (split; [|intros c' E; vm_compute in E; injection E as <-]); try exact I; (eexists; split; [vm_compute; reflexivity|]).
  - split; [fine2|]. no_key.
  - split; [fine2|]. left. no_key.
  - split; [fine2|]. left. no_key.
  - split; [fine2|]. left. no_key.
  - vm_compute. auto.
Qed.

(** A case with arrays: in [[ {a = 1}, [2, 3] ]] a pair is added to the first element, a number to the second; then a dict
    is put before them, gets another pair, and the last element goes; its successors keep their places. *)
Definition C49_array : str := L "[ {a = 1}, [2, 3] ]".
Definition C49_array_read : item := match value_of C49_array with Ok it => it | Err _ => INull end.
Definition C49_array_list : list (list pstep * iop) :=
  [([Index 0%nat], ISet (L "b") (PInt 5)); ([Index 1%nat], IArr (LAppend (PInt 4))); ([Index 1%nat], IArr (LSet (-3) (PBool true)));
   ([], IArr (LInsert 0 (PDict [(L "c", PInt 1)]))); ([Index 0%nat], IAdd (L "d") (PList [PInt 6; PDict [(L "x", PInt 7)]])); ([Index 0%nat; Edit.Key (L "d"); Index 1%nat], ISet (L "y") (PInt 8)); ([], IArr (LDel 1))].
Local Ltac groups vs tl := exists false, vs, tl; split; [reflexivity|]; split; [repeat constructor; eexists; vm_compute; reflexivity|]; split; [repeat split; intros; try reflexivity; congruence|].
Example C49_array_text : denotes C49_array (PList [PDict [(L "a", PInt 1)]; PList [PInt 2; PInt 3]]) /\ value_of C49_array = Ok C49_array_read.
Proof.
  split; [|vm_compute; reflexivity]. assert (G : forall w, Forall blank_c w -> Grammar.gap w) by (intros w H; apply Grammar.gap_ws; eapply Forall_impl; [|exact H]; intros c X; unfold space_c; left; exact X).
  refine (dn_array (L " {a = 1}, [2, 3] ") _ _). refine (em_value (L " ") (L "{a = 1}") (PDict [(L "a", PInt 1)]) (L ", [2, 3] ") [PList [PInt 2; PInt 3]] _ _ _); [apply G; bl| |].
  - refine (dn_inline (L "a = 1") [(L "a", Value (PInt 1))] _). refine (fd_last [] (L "a") [L "a"] (L " = ") (L "1") (PInt 1) [] _ _ _ _ _ _ _ (put_value (L "a") _ [] _)); [bl|apply km_one; name (@nil char) (L "a") (@nil char)|eq_|int1|bl|intros []].
  - refine (em_comma [] (L " [2, 3] ") [PList [PInt 2; PInt 3]] _ _); [apply G; bl|]. refine (em_value (L " ") (L "[2, 3]") (PList [PInt 2; PInt 3]) (L " ") [] _ _ _); [apply G; bl| |apply em_end, G; bl].
    refine (dn_array (L "2, 3") [PInt 2; PInt 3] _). refine (em_value [] (L "2") (PInt 2) (L ", 3") [PInt 3] _ _ _); [apply G; bl|int1|]. refine (em_comma [] (L " 3") [PInt 3] _ _); [apply G; bl|]. refine (em_value (L " ") (L "3") (PInt 3) [] [] _ _ _); [apply G; bl|int1|apply em_end, G; bl].
Qed.
Example C49_array_example : possible_insides C49_array_read C49_array_list /\
  exists it', inside_all C49_array_read C49_array_list = Ok it' /\ item_string it' = L "[ {c = 1, d = [6, {x = 7, y = 8}]}, [true, 3, 4] ]".
Proof.
  split; [|eexists; split; [vm_compute; reflexivity|vm_compute; reflexivity]].
  repeat (split; [|intros c' E; vm_compute in E; injection E as <-]); try exact I; (eexists; split; [vm_compute; reflexivity|]).
  - split; [fine2|]. left. no_key.
  - split; [fine2|]. split; [exact I|]. match goal with |- exists ln, tidy ln ?gs => groups gs (@nil (agroup item)) end. split; [left; reflexivity|intros _; repeat constructor].
  - split; [fine2|]. split; [vm_compute; discriminate|exact I].
  - split; [fine2|]. split; [exact I|]. match goal with |- exists ln, tidy ln [?a; ?b; ?w] => groups [a; b] [w] end. split; [right; eexists; repeat split; discriminate|discriminate].
  - split; [fine2|]. no_key.
  - split; [fine2|]. left. no_key.
  - split; [fine2|]. split; [vm_compute; discriminate|]. match goal with |- exists ln, tidy ln [?a; ?b; ?c; ?w] => groups [a; b; c] [w] end. split; [right; eexists; repeat split; discriminate|discriminate].
Qed.

(** Operations that the value does not have: on a list, [x[k] = v], [del x[k]] and [x.add(k, v)] with a string [k] raise TypeError or
    AttributeError; on a string, number, boolean or date everything does. *)
Theorem C49_wrong_kind : forall it u o, unwrap it = Some u ->
  match u, o with
  | PList _, IArr _ | PDict _, _ => True
  | _, _ => match it with IAoT _ _ _ _ => True | _ => inside_item it [] o = Err TypeErrorE \/ inside_item it [] o = Err AttributeErrorE end
  end.
Proof.
  intros it u o H. destruct it as [s f|t| |v t|gs t ml|c t new|c m|l nm p t]; try discriminate.
  - destruct u; try (left; reflexivity); destruct o; try (left; reflexivity); exact I.
  - rewrite Unwrap.unwrap_array in H. destruct (ItemConv.seqopt _) as [l|]; [|discriminate]. injection H as <-. destruct o; [left; reflexivity|left; reflexivity|right; reflexivity|exact I].
  - rewrite Unwrap.unwrap_inline in H. destruct (unwrap_cont c) as [d|]; [|discriminate]. injection H as <-. exact I.
  - rewrite Unwrap.unwrap_table in H. destruct (unwrap_cont c) as [d|]; [|discriminate]. injection H as <-. exact I.
  - destruct u; destruct o; exact I.
Qed.
Print Assumptions C49_wrong_kind.

(** Tables that dotted keys make: [t["a"]["c"] = 2] in [{a.b = 1}] gives a text that is not TOML, and so does [del t["a"]["b"]]. *)
Theorem C49_dotted_refuted : exists it it1 it2, value_of (L "{a.b = 1}") = Ok it /\
  inside_item it [Edit.Key (L "a")] (ISet (L "c") (PInt 2)) = Ok it1 /\ item_string it1 = L "{a.b = 1c = 2" ++ [10]%N ++ L "}" /\ (forall i, value_of (item_string it1) <> Ok i) /\
  inside_item it [Edit.Key (L "a")] (IDel (L "b")) = Ok it2 /\ item_string it2 = L "{a.}" /\ forall i, value_of (item_string it2) <> Ok i.
Proof.
  eexists _, _, _. split; [vm_compute; reflexivity|]. split; [vm_compute; reflexivity|]. split; [vm_compute; reflexivity|]. split; [intros i; vm_compute; discriminate|].
  split; [vm_compute; reflexivity|]. split; [vm_compute; reflexivity|]. intros i. vm_compute. discriminate.
Qed.
Print Assumptions C49_dotted_refuted.
