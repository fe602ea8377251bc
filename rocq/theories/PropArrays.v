(** Property theorems: arrays (C22, C23, C24, C35).

    Vocabulary: [arr] is an Array object: the list the user sees ([a_list]), the
    groups that are rendered, the index map.  [arr_string a] is [a.as_string()].
    [lop], [lrun], [lstep] (ListSpec.v) are the operations of a plain Python list;
    [arr_run], [arr_step] are the same operations done by the Array's methods.
    [laid_out deco vs s]: [s] is the texts [vs] in order, with whitespace, commas
    and comments before, between and after them.  [comma_list vs s]: one comma
    between neighbours, none before the first, at most one after the last.
    [real i]: [i] is a value (not a Whitespace, Comment or Null item). *)
From Verif Require Import Base Source Utils Items Container Arrays Parser Api Lemmas Reader Text TextValue TextParse Verbatim ListSpec ArrayLemmas ArrayText ArrayTidy ArrayLines Ordinary NoLossDoc.
Open Scope nat_scope.

(** The Array object behind a rendered array. *)
Definition arr_of (gs : list (agroup item)) : arr := mkArr (map LItem (reals gs)) gs (reindex 0 gs).
Lemma arr_of_new elems : elems_real elems -> arr_new elems = arr_of (group_values elems).
Proof. intros H. unfold arr_new, arr_of. rewrite elem_vals_map, group_values_reals by exact H. reflexivity. Qed.
Definition values_only (os : list (lop item)) : Prop := Forall (fun o => Forall real (lop_values o)) os.
Definition brackets (s : str) : str := [chLBR] ++ s ++ [chRBR].

Lemma parsed_sync strict n st gs t ml st' : parse_value strict n st = (Ok (IArray gs t ml), st') ->
  (exists elems, Forall elem_ok elems /\ gs = group_values elems) /\ sync (arr_of gs) (reals gs) /\ Forall real (reals gs) /\ gsok (arr_of gs) /\ t = default_trivia /\ ml = false.
Proof.
  intros H. apply sat_values in H as [_ (elems & He & E)]. inversion E; subst. split; [eauto|]. split; [repeat split|]. split; [|split; [apply group_values_ok, He|auto]].
  rewrite group_values_reals by (apply elems_real_ok, He). apply elems_real_ok, He.
Qed.
(** C22.  Any array the parser returns, any history: the list the user sees is the
    plain list under the same history, and the text shows exactly these values in
    this order. *)
Theorem C22_list_and_text : forall strict n st gs t ml st' os,
  parse_value strict n st = (Ok (IArray gs t ml), st') -> values_only os ->
  let a := arr_run (arr_of gs) os in let l := lrun (reals gs) os in
  a_list a = map LItem l /\ exists text, arr_string a = brackets text /\ laid_out deco (map item_string l) text.
Proof.
  intros strict n st gs t ml st' os H V a l. destruct (parsed_sync _ _ _ _ _ _ _ H) as (_ & S & R & G & _). destruct (run_sync os _ _ S R V) as [(A & B & C) _]. split; [exact A|].
  exists (flat_map gtext (a_groups a)). split; [reflexivity|]. change l with (lrun (reals gs) os). rewrite <- B. apply groups_laid. apply run_ok, G.
Qed.
Print Assumptions C22_list_and_text.
(** The array [arr_of gs] above is the one [_parse_array] builds. *)
Theorem C22_parsed_object : forall strict n st gs t ml st', parse_value strict n st = (Ok (IArray gs t ml), st') ->
  exists elems, gs = group_values elems /\ arr_new elems = arr_of gs /\ item_string (IArray gs t ml) = arr_string (arr_of gs).
Proof.
  intros strict n st gs t ml st' H. destruct (parsed_sync _ _ _ _ _ _ _ H) as ((elems & He & ->) & _ & _ & _ & -> & ->). exists elems. split; [reflexivity|]. split; [apply arr_of_new, elems_real_ok, He|].
  rewrite array_string. reflexivity.
Qed.
Print Assumptions C22_parsed_object.
(** The same for an array built from nothing ([tomlkit.array()], [item([...])]). *)
Theorem C22_created : forall os, values_only os ->
  let a := arr_run arr_empty os in let l := lrun [] os in
  a_list a = map LItem l /\ exists text, arr_string a = brackets text /\ laid_out deco (map item_string l) text.
Proof.
  intros os V a l. destruct (run_sync os _ _ sync_empty (Forall_nil _) V) as [(A & B & C) _]. split; [exact A|].
  exists (flat_map gtext (a_groups a)). split; [reflexivity|]. change l with (lrun [] os). rewrite <- B. apply groups_laid. apply run_ok. constructor.
Qed.
Print Assumptions C22_created.
(** An operation raises IndexError exactly when the plain list would, and no
    other exception is raised. *)
Theorem C22_same_errors : forall strict n st gs t ml st' os o,
  parse_value strict n st = (Ok (IArray gs t ml), st') -> values_only os -> Forall real (lop_values o) ->
  match lstep (lrun (reals gs) os) o with
  | Some _ => exists a', arr_step (arr_run (arr_of gs) os) o = Ok a'
  | None => arr_step (arr_run (arr_of gs) os) o = Err IndexErrorE
  end.
Proof.
  intros strict n st gs t ml st' os o H V Vo. destruct (parsed_sync _ _ _ _ _ _ _ H) as (_ & S & R & _). destruct (run_sync os _ _ S R V) as [S1 R1].
  pose proof (step_sync _ _ o S1 R1 Vo) as X. destruct (lstep _ o); [destruct X as (a' & -> & _); eauto|exact X].
Qed.
Print Assumptions C22_same_errors.
(** Indexing returns the list's elements. *)
Theorem C22_indexing : forall strict n st gs t ml st' os i,
  parse_value strict n st = (Ok (IArray gs t ml), st') -> values_only os ->
  let l := lrun (reals gs) os in
  arr_get (arr_run (arr_of gs) os) i = match py_index (List.length l) i with
                                       | Some p => match nth_error l p with Some v => Ok v | None => Err IndexErrorE end
                                       | None => Err IndexErrorE end.
Proof.
  intros strict n st gs t ml st' os i H V l. destruct (parsed_sync _ _ _ _ _ _ _ H) as (_ & S & R & _). destruct (run_sync os _ _ S R V) as [S1 _].
  pose proof (get_sync _ _ i S1) as X. unfold l. destruct (py_index _ i) as [p|]; [destruct X as (v & -> & ->); reflexivity|exact X].
Qed.
Print Assumptions C22_indexing.

Definition lf : str := [chLF].
Definition int_item (z : Z) : item := IVal (SInt z (dec_Z z)) default_trivia.
(** The array read from a text, edited by a history, rendered. *)
Definition edited (s : str) (os : list (lop item)) : option str :=
  match value_of s with Ok (IArray gs _ _) => Some (arr_string (arr_run (arr_of gs) os)) | _ => None end.
Definition length_read (s : str) : option nat := match value_of s with Ok (IArray gs _ _) => Some (List.length (reals gs)) | _ => None end.
Example C22_ex : edited (L "[ 1, 2,  [3] ]") [LInsert (-1) (int_item 7); LSet 0 (int_item 8); LDel 1; LReverse; LAppend (int_item 9)]
  = Some (L "[ [3],  7,  8,  9 ]").
Proof. vm_compute. reflexivity. Qed.
(** But the text may hide a value: appending to an array whose last value shares
    its line with a comment writes the new value into the comment. *)
Theorem C22_comment_refuted :
  edited (L "[ 1 # c" ++ lf ++ L "]") [LAppend (int_item 2)] = Some (L "[ 1, # c 2" ++ lf ++ L "]")
  /\ length_read (L "[ 1, # c 2" ++ lf ++ L "]") = Some 1.
Proof. split; vm_compute; reflexivity. Qed.

(** The same with [add_line] among the operations ([aop], ArrayLines.v): for the list
    it is [extend].  Its values are neither booleans nor inline tables. *)
Theorem C22_lines_partial : forall strict n st gs t ml st' os,
  parse_value strict n st = (Ok (IArray gs t ml), st') -> Forall aop_ok os ->
  let a := aop_run (arr_of gs) os in let l := lrun (reals gs) (map as_list os) in
  a_list a = map LItem l /\ exists text, arr_string a = brackets text /\ laid_out deco (map item_string l) text.
Proof.
  intros strict n st gs t ml st' os H V a l. destruct (parsed_sync _ _ _ _ _ _ _ H) as (_ & S & R & G & _). destruct (aop_run_sync os _ _ S R V) as [(A & B & C) _]. split; [exact A|].
  exists (flat_map gtext (a_groups a)). split; [reflexivity|]. change l with (lrun (reals gs) (map as_list os)). rewrite <- B. apply groups_laid. apply aop_run_ok; assumption.
Qed.
Print Assumptions C22_lines_partial.
(** The array read from a text, edited by such a history, rendered. *)
Definition reworked (s : str) (os : list aop) : option str :=
  match value_of s with Ok (IArray gs _ _) => Some (arr_string (aop_run (arr_of gs) os)) | _ => None end.
Example C22_lines_ex : reworked (L "[0]") [ALine [int_item 1; int_item 2] (L "  ") (Some (L "two")) true true; AList (LDel 0); ALine [] [] None true true; AList (LInsert 1 (int_item 9))]
  = Some (L "[" ++ lf ++ L "  1, 9, 2, # two" ++ lf ++ L "]").
Proof. vm_compute. reflexivity. Qed.
(** A boolean added with [add_line] cannot be read back: [a.add_line(True); a[0]]
    raises AttributeError. *)
Theorem C22_raw_refuted : arr_get (aop_run arr_empty [ALine [IVal (SBool true) default_trivia] [] None true true]) 0 = Err AttributeErrorE.
Proof. vm_compute. reflexivity. Qed.
(** After [a.add_line(1, 2, comment="c"); a.add_line(indent="")], [a.append(3)] writes
    the value into the comment. *)
Theorem C22_line_comment_refuted : arr_string (aop_run arr_empty [ALine [int_item 1; int_item 2] (L "    ") (Some (L "c")) true true; ALine [] [] None true true; AList (LAppend (int_item 3))])
  = L "[" ++ lf ++ L "    1, 2, # c 3," ++ lf ++ L "]".
Proof. vm_compute. reflexivity. Qed.

(** C23.  Comma placement, for arrays in one of two shapes ([tidy]): no comments
    and every comma right behind its value, or (comments allowed) every value and
    the closing bracket on a line of its own. *)
Theorem C23_commas_partial : forall strict n st gs t ml st' os ln,
  parse_value strict n st = (Ok (IArray gs t ml), st') -> tidy ln gs -> values_only os ->
  exists text, arr_string (arr_run (arr_of gs) os) = brackets text /\ comma_list (map item_string (lrun (reals gs) os)) text.
Proof.
  intros strict n st gs t ml st' os ln H T V. destruct (parsed_sync _ _ _ _ _ _ _ H) as (_ & S & R & _). destruct (run_sync os _ _ S R V) as [(A & B & C) _].
  destruct (run_tidy os (arr_of gs) (reals gs) S R V) as [ln' T']; [exists ln; exact T|]. exists (flat_map gtext (a_groups (arr_run (arr_of gs) os))). split; [reflexivity|]. rewrite <- B. eapply text_tidy, T'.
Qed.
Print Assumptions C23_commas_partial.
Theorem C23_created : forall os, values_only os -> exists text, arr_string (arr_run arr_empty os) = brackets text /\ comma_list (map item_string (lrun [] os)) text.
Proof.
  intros os V. destruct (run_sync os _ _ sync_empty (Forall_nil _) V) as [(A & B & C) _].
  destruct (run_tidy os arr_empty [] sync_empty (Forall_nil _) V) as [ln T]; [exists false; apply tidy_nil|]. exists (flat_map gtext (a_groups (arr_run arr_empty os))). split; [reflexivity|]. rewrite <- B. eapply text_tidy, T.
Qed.
Print Assumptions C23_created.
(** Rendered with [multiline(True)], every array has its commas right. *)
Theorem C23_multiline : forall strict n st gs t ml st' os tr,
  parse_value strict n st = (Ok (IArray gs t ml), st') -> values_only os -> wstr (tr_indent tr) ->
  exists text, item_string (IArray (a_groups (arr_run (arr_of gs) os)) tr true) = brackets text /\ comma_list (map item_string (lrun (reals gs) os)) text.
Proof.
  intros strict n st gs t ml st' os tr H V W. destruct (parsed_sync _ _ _ _ _ _ _ H) as (_ & S & R & G & _). destruct (run_sync os _ _ S R V) as [(A & B & C) _].
  pose proof (run_ok os _ G) as G'. unfold gsok in G'. rewrite <- B. destruct (a_groups (arr_run (arr_of gs) os)) as [|g r] eqn:E.
  - exists []. split; [reflexivity|]. constructor. constructor.
  - exists ([chLF] ++ flat_map (mtext tr) (g :: r) ++ tr_indent tr). split.
    + rewrite multi_string by discriminate. unfold brackets. rewrite <- !app_assoc. reflexivity.
    + pose proof (multi_tidy tr (g :: r) W G') as M. remember (map item_string (reals (g :: r))) as vs. remember (flat_map (mtext tr) (g :: r) ++ tr_indent tr) as s. clear -M.
      assert (G : gap [chLF]) by (apply gap_wstr; reflexivity). destruct M as [b Hb|b v b' Hb Hb'|b v b' Hb Hb'|b v vs s Hb N M].
      * constructor. apply gap_app; assumption.
      * rewrite app_assoc. apply cl_one; [apply gap_app|]; assumption.
      * rewrite app_assoc. apply cl_trail; [apply gap_app|]; assumption.
      * rewrite app_assoc. apply cl_more; [apply gap_app|exact N|exact M]; assumption.
Qed.
Print Assumptions C23_multiline.
(** An array written line by line ([aline], ArrayLines.v: the values, indentation and
    comment of an [add_line] call) and closed by [a.add_line(indent=ind)]: every line
    stands as documented, and the commas are right. *)
Theorem C23_lines : forall ls ind, Forall aline_ok ls -> Forall nonblank ls -> wstr ind ->
  let a := aop_run arr_empty (map add_of ls ++ [ALine [] ind None true true]) in
  let text := flat_map text_of ls ++ chLF :: ind in
  arr_string a = brackets text /\ comma_list (map item_string (flat_map values_of ls)) text.
Proof.
  intros ls ind O N W a text. split; [unfold arr_string, a; rewrite (sheet_close ls ind O N W); reflexivity|]. unfold text. rewrite sheet_body_eq. apply (cl_pre [chLF]); [apply gap_wstr; reflexivity|]. apply sheet_commas; assumption.
Qed.
Print Assumptions C23_lines.
Definition C23_sheet : list aline := [([int_item 1; int_item 2], L "    ", Some (L "two")); ([], L "  ", Some (L "none")); ([int_item 3], [], None)].
Example C23_lines_ex : Forall aline_ok C23_sheet /\ Forall nonblank C23_sheet /\ flat_map text_of C23_sheet = lf ++ L "    1, 2, # two" ++ lf ++ L "  # none" ++ lf ++ L "3,".
Proof.
  assert (O : forall c, forallb (fun x => (32 <=? x) && (x <? 127))%N c = true -> one_line c).
  { intros c H. apply Forall_forall. intros x Hx. rewrite forallb_forall in H. apply H in Hx. apply andb_true_iff in Hx as [A B]. apply N.leb_le in A. apply N.ltb_lt in B. unfold Grammar.control_c. lia. }
  split; [|split; [|vm_compute; reflexivity]].
  - repeat (apply Forall_cons; [split; [repeat (apply Forall_cons; [split; exact I|]); apply Forall_nil|split; [reflexivity|try exact I; apply O; reflexivity]]|]). apply Forall_nil.
  - apply Forall_cons; [left; discriminate|]. apply Forall_cons; [right; exact I|]. apply Forall_cons; [left; discriminate|]. apply Forall_nil.
Qed.
(** Lines without comments ([simple_op]) among the other operations, on an array
    without comments. *)
Theorem C23_added_partial : forall strict n st gs t ml st' os,
  parse_value strict n st = (Ok (IArray gs t ml), st') -> tidy false gs -> Forall (fun g => g_comment g = None) gs -> Forall aop_ok os -> Forall simple_op os ->
  exists text, arr_string (aop_run (arr_of gs) os) = brackets text /\ comma_list (map item_string (lrun (reals gs) (map as_list os))) text.
Proof.
  intros strict n st gs t ml st' os H T NC V P. destruct (parsed_sync _ _ _ _ _ _ _ H) as (_ & S & R & _). destruct (aop_run_sync os _ _ S R V) as [(A & B & C) _].
  pose proof (aop_run_tidy os (arr_of gs) (reals gs) S R V P T NC) as T'. exists (flat_map gtext (a_groups (aop_run (arr_of gs) os))). split; [reflexivity|]. rewrite <- B. eapply text_tidy, T'.
Qed.
Print Assumptions C23_added_partial.
(** Two closing lines: the next value is preceded by two commas. *)
Theorem C23_blank_refuted : let s := arr_string (aop_run arr_empty [ALine [int_item 1] (L "    ") None true true; ALine [] [] None true true; ALine [] [] None true true; AList (LAppend (int_item 2))]) in
  s = L "[" ++ lf ++ L "    1," ++ lf ++ L "," ++ lf ++ L "2" ++ lf ++ L "]" /\ length_read s = None.
Proof. split; vm_compute; reflexivity. Qed.
(** Two texts of the two shapes. *)
Ltac tidy_ex vs tl := exists vs, tl.
Example C23_ex1 : match value_of (L "[1, 'a',  3 ]") with Ok (IArray gs _ _) => tidy false gs /\ List.length (reals gs) = 3 | _ => False end.
Proof.
  vm_compute value_of. split; [|reflexivity].
  match goal with |- tidy _ [?a; ?b; ?c; ?w] => exists [a; b; c], [w] end. split; [reflexivity|].
  split; [repeat constructor; eexists; vm_compute; reflexivity|]. split; [repeat split; intros; try reflexivity; congruence|].
  split; [right; eexists; repeat split; discriminate|discriminate].
Qed.
Example C23_ex2 : match value_of (L "[" ++ lf ++ L "  1, # one" ++ lf ++ L "  2, # two" ++ lf ++ L "]") with Ok (IArray gs _ _) => tidy true gs /\ List.length (reals gs) = 2 | _ => False end.
Proof.
  vm_compute value_of. split; [|reflexivity].
  match goal with |- tidy _ [?a; ?b; ?w] => exists [a; b], [w] end. split; [reflexivity|].
  assert (SL : starts_line [10%N; 32%N; 32%N]) by (split; [exists chLF, [32%N; 32%N]; split; reflexivity|reflexivity]).
  split. { repeat (apply Forall_cons; [split; [split; [reflexivity|split; [reflexivity|split; [reflexivity|split; [reflexivity|eexists; split; [reflexivity|repeat (constructor; [intros [X|[X _]]; [discriminate|exfalso; apply X; reflexivity]|]); constructor]]]]]|split; [eexists; reflexivity|eexists; split; [reflexivity|exact SL]]]|]). apply Forall_nil. }
  split; [repeat split; intros; try reflexivity; congruence|].
  split; [right; eexists; split; [reflexivity|]; repeat split; intros; eexists; split; [reflexivity|]; split; [eexists; eexists; split; reflexivity|reflexivity]|discriminate].
Qed.
(** Outside these shapes commas go wrong: doubled, missing, or lost with the
    closing bracket inside a comment. *)
Theorem C23_first_refuted : edited (L "[1 , 2]") [LDel 0] = Some (L "[, 2]") /\ length_read (L "[, 2]") = None.
Proof. split; vm_compute; reflexivity. Qed.
Theorem C23_double_refuted : edited (L "[1 , 2 , 3]") [LDel 1] = Some (L "[1 , , 3]") /\ length_read (L "[1 , , 3]") = None.
Proof. split; vm_compute; reflexivity. Qed.
Theorem C23_missing_refuted : edited (L "[1 # c" ++ lf ++ L " # d" ++ lf ++ L "]") [LAppend (int_item 2)] = Some (L "[1 # c" ++ lf ++ L " # d" ++ lf ++ L " 2" ++ lf ++ L "]")
  /\ length_read (L "[1 # c" ++ lf ++ L " # d" ++ lf ++ L " 2" ++ lf ++ L "]") = None.
Proof. split; vm_compute; reflexivity. Qed.
Theorem C23_bracket_refuted : edited (L "[" ++ lf ++ L " 1, # c" ++ lf ++ L " 2]") [LDel 1] = Some (L "[" ++ lf ++ L " 1 # c]")
  /\ length_read (L "[" ++ lf ++ L " 1 # c]") = None.
Proof. split; vm_compute; reflexivity. Qed.

(** C24.  [del a[i:j]] with bounds inside the list and [j] not zero. *)
Theorem C24_slice_partial : forall strict n st gs t ml st' os i j,
  parse_value strict n st = (Ok (IArray gs t ml), st') -> values_only os ->
  let l := lrun (reals gs) os in
  i <= j -> j <= List.length l -> 0 < j ->
  exists a', arr_del_slice (arr_run (arr_of gs) os) (Some (Z.of_nat i)) (Some (Z.of_nat j)) = Ok a'
    /\ a_list a' = map LItem (firstn i l ++ skipn j l) /\ reals (a_groups a') = firstn i l ++ skipn j l.
Proof.
  intros strict n st gs t ml st' os i j H V l H1 H2 H3. destruct (parsed_sync _ _ _ _ _ _ _ H) as (_ & S & R & _). destruct (run_sync os _ _ S R V) as [S1 _].
  destruct (slice_sync _ _ i j S1 H1 H2 H3) as (a' & E & A & B & _). exists a'. auto.
Qed.
Print Assumptions C24_slice_partial.
Definition after_slice (s : str) (i j : option Z) : option (nat * str) :=
  match value_of s with
  | Ok (IArray gs _ _) => match arr_del_slice (arr_of gs) i j with Ok a => Some (List.length (a_list a), arr_string a) | Err _ => None end
  | _ => None
  end.
Example C24_ex : after_slice (L "[1, 2, 3, 4]") (Some 1%Z) (Some 3%Z) = Some (2, L "[1, 4]").
Proof. vm_compute. reflexivity. Qed.
(** Negative bounds and a zero bound separate the list from the text. *)
Theorem C24_negative_refuted : after_slice (L "[1, 2, 3]") (Some (-2)%Z) None = Some (1, L "[]").
Proof. vm_compute. reflexivity. Qed.
Theorem C24_negative_stop_refuted : after_slice (L "[1, 2, 3]") (Some 0%Z) (Some (-1)%Z) = Some (1, L "[1, 2, 3]").
Proof. vm_compute. reflexivity. Qed.
Theorem C24_zero_refuted : after_slice (L "[1, 2, 3]") None (Some 0%Z) = Some (3, L "[]").
Proof. vm_compute. reflexivity. Qed.
(** [sort] changes the list and never the text, whatever order is asked for. *)
Theorem C24_sort_refuted : forall sorted gs, arr_string (arr_sort_with sorted (arr_of gs)) = arr_string (arr_of gs) /\ a_list (arr_sort_with sorted (arr_of gs)) = sorted (a_list (arr_of gs)).
Proof. split; reflexivity. Qed.

(** C35.  Where no report is made, an accepted array is rendered as exactly the
    text it was read from: no value between the brackets is dropped. *)
Theorem C35_content_partial : forall n st gs t ml st', parse_value true n st = (Ok (IArray gs t ml), st') ->
  p_rest st = item_string (IArray gs t ml) ++ p_rest st' /\ laid_out deco (map item_string (reals gs)) (flat_map gtext gs)
  /\ item_string (IArray gs t ml) = brackets (flat_map gtext gs).
Proof.
  intros n st gs t ml st' H. destruct (parsed_sync _ _ _ _ _ _ _ H) as (_ & _ & _ & G & -> & ->). split; [|split; [apply groups_laid, G|rewrite array_string; reflexivity]].
  pose proof (value_text _ _ _ _ H) as (A & _). destruct (good_value true n st) as [w Hw]. rewrite H in Hw. cbn [snd] in Hw. pose proof (adds_inj _ _ _ _ A (moved_adds _ _ _ Hw)) as E.
  destruct Hw as [Hw _]. rewrite Hw, <- E. cbn [item_trivia default_trivia tr_cws]. rewrite app_nil_r. reflexivity.
Qed.
Print Assumptions C35_content_partial.
(** From the text alone: no inline table directly inside an array, no space after a date or before a comma. *)
Theorem C35_ordinary_partial : forall s gs t ml, braces_after_eq s -> no_date_space s -> no_blank_comma s -> value_of s = Ok (IArray gs t ml) ->
  s = brackets (flat_map gtext gs) /\ laid_out deco (map item_string (reals gs)) (flat_map gtext gs).
Proof.
  intros s gs t ml H1 H2 H3 H. apply value_strict in H; auto. destruct H as (st' & H & E). destruct (C35_content_partial _ _ _ _ _ _ H) as (A & B & C).
  rewrite E, app_nil_r, C in A. auto.
Qed.
Print Assumptions C35_ordinary_partial.
Example C35_ordinary_ex : exists s gs t ml, (no_lone_cr s /\ no_date_space s /\ braces_after_eq s /\ no_blank_comma s) /\ value_of s = Ok (IArray gs t ml) /\ List.length (reals gs) = 3%nat.
Proof.
  exists (L "[1979-05-27, [[], 2]," ++ [chLF; chTAB] ++ L "'}' # x" ++ [chLF] ++ L "]"). do 3 eexists. split; [apply charsb_ok; vm_compute; reflexivity|].
  split; [vm_compute; reflexivity|reflexivity].
Qed.
Theorem C35_dropped_refuted : exists gs t ml, value_of (L "[{a=1]") = Ok (IArray gs t ml) /\ reals gs = [] /\ item_string (IArray gs t ml) = L "[]".
Proof. do 3 eexists. split; [vm_compute; reflexivity|split; reflexivity]. Qed.
