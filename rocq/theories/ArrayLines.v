(** [Array.add_line] (items.py:1244-1318): list view, text, commas. *)
From Verif Require Grammar.
From Verif Require Import Base Source Utils Items Container Arrays Parser Lemmas Wf Reader Text TextValue Verbatim ListSpec ArrayLemmas ArrayText ArrayTidy.
Open Scope nat_scope.

(** An operation on an array: one of a list, or [add_line]. *)
Inductive aop :=
  | AList (o : lop item)
  | ALine (vs : list item) (indent : str) (comment : option str) (add_comma newline : bool).
(** What the operation is for a plain list. *)
Definition as_list (o : aop) : lop item := match o with AList o => o | ALine vs _ _ _ _ => LExtend vs end.
Definition aop_step (a : arr) (o : aop) : res arr :=
  match o with AList o => arr_step a o | ALine vs ind c ac nl => arr_add_line a vs ind c ac nl end.
Fixpoint aop_run (a : arr) (os : list aop) : arr :=
  match os with
  | [] => a
  | o :: os' => aop_run (match aop_step a o with Ok a' => a' | Err _ => a end) os'
  end.
(** A value [add_line] stores as it is: not a boolean, not an inline table. *)
Definition plain (i : item) : Prop := real i /\ match i with IVal (SBool _) _ | IInline _ _ _ => False | _ => True end.
(** The text of a comment: no control characters. *)
Definition one_line (c : str) : Prop := Forall (fun c => ~ Grammar.control_c c) c.
Definition aop_ok (o : aop) : Prop :=
  match o with
  | AList o => Forall real (lop_values o)
  | ALine vs ind c _ _ => Forall plain vs /\ wstr ind /\ opt_ok one_line c
  end.

Lemma plain_real vs : Forall plain vs -> Forall real vs.
Proof. apply Forall_impl. intros v H. apply H. Qed.
Lemma plain_obj vs : Forall plain vs -> map value_obj vs = map LItem vs.
Proof. induction 1 as [|v vs [_ H] _ IH]; [reflexivity|]. cbn [map]. rewrite IH. f_equal. destruct v as [| | |x t| | | |]; try reflexivity; [destruct x; try reflexivity; destruct H|destruct H]. Qed.
(** The pieces of a line. *)
Definition line_pieces (vs : list item) (ind : str) (c : option str) (ac nl : bool) : list aelem :=
  (match (if nl then chLF :: ind else ind) with [] => [] | _ => [EWs (if nl then chLF :: ind else ind)] end)
  ++ line_elems vs ac
  ++ (match c with
      | Some ((_ :: _) as c) => [EComment (mkTrivia (match vs with [] => [] | _ => L " " end) [] (L "# " ++ c) [])]
      | _ => []
      end).
Definition add_groups (gs ng : list (agroup item)) : list (agroup item) :=
  match List.length gs with
  | O => ng
  | S i => match nth_error gs i with
           | Some g => if g_is_ws g then firstn i gs ++ ng ++ skipn i gs else gs ++ ng
           | None => gs ++ ng
           end
  end.
Lemma add_line_eq a vs ind c ac nl : Forall real vs -> arr_add_line a vs ind c ac nl =
  let gs := add_groups (comma_last_real (a_groups a)) (group_values (line_pieces vs ind c ac nl)) in
  Ok (mkArr (a_list a ++ map value_obj vs) gs (reindex 0 gs)).
Proof.
  intros R. destruct a as [l gs m]. unfold arr_add_line. assert (X : existsb (fun i => match i with IComment _ => true | _ => false end) vs = false).
  { induction R as [|v vs Hv _ IH]; [reflexivity|]. cbn [existsb]. rewrite IH. destruct v; auto; destruct Hv. }
  rewrite X. reflexivity.
Qed.
Lemma line_elems_cons x y r ac : line_elems (x :: y :: r) ac = EVal x :: (if ac then [EWs [chCOMMA]; EWs [chSP]] else []) ++ line_elems (y :: r) ac.
Proof. reflexivity. Qed.
Lemma vals_app a b : vals (a ++ b) = vals a ++ vals b.
Proof. apply flat_map_app. Qed.
Lemma vals_line vs ac : vals (line_elems vs ac) = vs.
Proof.
  induction vs as [|x [|y r] IH]; [reflexivity|destruct ac; reflexivity|]. rewrite line_elems_cons. change (vals (EVal x :: ?r)) with (x :: vals r). f_equal.
  rewrite vals_app, IH. destruct ac; reflexivity.
Qed.
Lemma ok_line vs ac : Forall real vs -> Forall elem_ok (line_elems vs ac).
Proof.
  induction 1 as [|x vs Hx H IH]; [constructor|]. destruct vs as [|y r].
  - constructor; [exact Hx|]. destruct ac; [|constructor]. apply Forall_cons; [right; reflexivity|constructor].
  - rewrite line_elems_cons. constructor; [exact Hx|]. apply Forall_app. split; [|exact IH]. destruct ac; [|constructor]. apply Forall_cons; [right; reflexivity|]. apply Forall_cons; [left; reflexivity|constructor].
Qed.
Lemma line_pieces_vals vs ind c ac nl : vals (line_pieces vs ind c ac nl) = vs.
Proof.
  unfold line_pieces. rewrite !vals_app, vals_line. destruct (if nl then _ else _); cbn [vals flat_map app]; (destruct c as [[|]|]; cbn [vals flat_map]; rewrite app_nil_r; reflexivity).
Qed.
Lemma line_pieces_ok vs ind c ac nl : Forall real vs -> wstr ind -> opt_ok one_line c -> Forall elem_ok (line_pieces vs ind c ac nl).
Proof.
  intros R W C. unfold line_pieces. assert (Wf : wstr (if nl then chLF :: ind else ind)) by (destruct nl; [exact W|exact W]).
  apply Forall_app. split; [destruct (if nl then _ else _); [constructor|apply Forall_cons; [left; exact Wf|constructor]]|]. apply Forall_app. split; [apply ok_line, R|].
  destruct c as [[|c0 c]|]; try constructor; [|constructor]. cbn [opt_ok] in C. split; [|split]; cbn [tr_indent tr_trail tr_comment].
  - destruct vs; reflexivity.
  - reflexivity.
  - exists (chSP :: c0 :: c). split; [reflexivity|]. constructor; [intros [X|[X _]]; [discriminate|exfalso; apply X; reflexivity]|exact C].
Qed.
Lemma last_real_spec gs : forall i acc, last_real gs i acc = acc /\ reals gs = [] \/ exists g1 x g2 v, gs = g1 ++ x :: g2 /\ last_real gs i acc = Some (i + List.length g1) /\ g_real x = Some v /\ reals g2 = [].
Proof.
  induction gs as [|g gs IH]; intros i acc; [left; split; reflexivity|]. cbn [last_real].
  destruct (IH (S i) (match g_real g with Some _ => Some i | None => acc end)) as [[E R]|(g1 & x & g2 & v & -> & E & V & R)].
  - destruct (g_real g) as [v|] eqn:G.
    + right. exists [], g, gs, v. rewrite E. cbn [List.length]. rewrite Nat.add_0_r. auto.
    + left. split; [exact E|]. rewrite reals_cons, R. unfold greal. rewrite G. reflexivity.
  - right. exists (g :: g1), x, g2, v. rewrite E. cbn [List.length app]. replace (i + S (List.length g1)) with (S i + List.length g1) by lia. auto.
Qed.
Lemma comma_last_spec gs : comma_last_real gs = gs /\ reals gs = [] \/
  exists g1 x g2 v, gs = g1 ++ x :: g2 /\ comma_last_real gs = g1 ++ set_comma (Some [chCOMMA]) x :: g2 /\ g_real x = Some v /\ reals g2 = [].
Proof.
  unfold comma_last_real. destruct (last_real_spec gs 0 None) as [[-> R]|(g1 & x & g2 & v & E & -> & V & R)]; [left; auto|]. right. exists g1, x, g2, v. cbn [Nat.add].
  rewrite E, nth_mid, list_set_app. auto.
Qed.
Lemma comma_last_reals gs : reals (comma_last_real gs) = reals gs.
Proof. destruct (comma_last_spec gs) as [[-> _]|(g1 & x & g2 & v & -> & -> & _)]; [reflexivity|]. rewrite !reals_app, !reals_cons, greal_comma. reflexivity. Qed.
Lemma comma_last_ok (P : agroup item -> Prop) gs : (forall g, P g -> P (set_comma (Some [chCOMMA]) g)) -> Forall P gs -> Forall P (comma_last_real gs).
Proof.
  intros HP H. destruct (comma_last_spec gs) as [[-> _]|(g1 & x & g2 & v & -> & -> & _)]; [exact H|]. apply Forall_app in H as [H1 H2]. inversion H2; subst. apply Forall_app. split; [exact H1|]. constructor; auto.
Qed.
Lemma add_groups_spec gs ng : add_groups gs ng = gs ++ ng /\ (forall h w, gs = h ++ [w] -> g_is_ws w = false) \/
  exists h w, gs = h ++ [w] /\ g_is_ws w = true /\ add_groups gs ng = h ++ ng ++ [w].
Proof.
  unfold add_groups. destruct (snoc_case gs) as [->|(h & w & ->)]; [left; split; [reflexivity|intros [|? ?] ? X; discriminate]|].
  rewrite app_length, Nat.add_1_r, nth_mid. destruct (g_is_ws w) eqn:W.
  - right. exists h, w. rewrite firstn_app, skipn_app, firstn_all, skipn_all, Nat.sub_diag. cbn [firstn skipn app]. rewrite app_nil_r. auto.
  - left. split; [reflexivity|]. intros h' w' E. apply app_inj_tail in E as [_ <-]. exact W.
Qed.
Lemma add_groups_reals gs ng : reals (add_groups gs ng) = reals gs ++ reals ng.
Proof.
  destruct (add_groups_spec gs ng) as [[-> _]|(h & w & -> & W & ->)]; rewrite ?reals_app; [reflexivity|]. unfold reals at 3 5. cbn [flat_map]. rewrite (is_ws_real _ W). cbn [app]. rewrite !app_nil_r. reflexivity.
Qed.
Lemma add_groups_ok (P : agroup item -> Prop) gs ng : Forall P gs -> Forall P ng -> Forall P (add_groups gs ng).
Proof.
  intros A B. destruct (add_groups_spec gs ng) as [[-> _]|(h & w & -> & W & ->)]; [apply Forall_app; auto|]. apply Forall_app in A as [A1 A2]. apply Forall_app. split; [exact A1|]. apply Forall_app. auto.
Qed.
Lemma line_sync a l vs ind c ac nl : sync a l -> Forall plain vs -> wstr ind -> opt_ok one_line c ->
  exists a', arr_add_line a vs ind c ac nl = Ok a' /\ sync a' (l ++ vs).
Proof.
  intros (Hl & Hr & Hm) V W C. rewrite add_line_eq by (apply plain_real, V). cbv zeta. eexists. split; [reflexivity|]. split; [|split; [|reflexivity]]; cbn [a_list a_groups].
  - rewrite Hl, plain_obj, map_app by exact V. reflexivity.
  - rewrite add_groups_reals, comma_last_reals, Hr, group_values_reals, line_pieces_vals; [reflexivity|]. apply elems_real_ok, line_pieces_ok; auto. apply plain_real, V.
Qed.
Lemma comma_gok g : gok g -> gok (set_comma (Some [chCOMMA]) g).
Proof. intros (A & B & C). destruct g. repeat split; assumption. Qed.
Lemma line_ok a a' vs ind c ac nl : gsok a -> Forall plain vs -> wstr ind -> opt_ok one_line c -> arr_add_line a vs ind c ac nl = Ok a' -> gsok a'.
Proof.
  intros G V W C. rewrite add_line_eq by (apply plain_real, V). cbv zeta. intros E. inversion E; subst. apply add_groups_ok; [apply comma_last_ok; [apply comma_gok|exact G]|].
  apply group_values_ok, line_pieces_ok; auto. apply plain_real, V.
Qed.
(** Any history. *)
Lemma aop_step_sync a l o : sync a l -> Forall real l -> aop_ok o ->
  match lstep l (as_list o) with
  | Some l' => exists a', aop_step a o = Ok a' /\ sync a' l' /\ Forall real l'
  | None => aop_step a o = Err IndexErrorE
  end.
Proof.
  intros S R V. destruct o as [o|vs ind c ac nl]; cbn [as_list aop_step aop_ok] in *; [apply step_sync; assumption|]. cbn [lstep]. destruct V as (V & W & C).
  destruct (line_sync a l vs ind c ac nl S V W C) as (a' & -> & S'). exists a'. split; [reflexivity|]. split; [exact S'|]. apply Forall_app. split; [exact R|apply plain_real, V].
Qed.
Lemma aop_run_sync os : forall a l, sync a l -> Forall real l -> Forall aop_ok os -> sync (aop_run a os) (lrun l (map as_list os)) /\ Forall real (lrun l (map as_list os)).
Proof.
  induction os as [|o os IH]; intros a l S R V; cbn [aop_run lrun map]; [auto|]. inversion V; subst.
  pose proof (aop_step_sync a l o S R) as X. destruct (lstep l (as_list o)) as [l'|].
  - destruct X as (a' & -> & S' & R'); [assumption|]. apply IH; auto.
  - rewrite X by assumption. apply IH; auto.
Qed.
Lemma aop_run_ok os : forall a, gsok a -> Forall aop_ok os -> gsok (aop_run a os).
Proof.
  induction os as [|o os IH]; intros a H V; cbn [aop_run]; [exact H|]. inversion V as [|? ? V1 V2]; subst. apply IH; [|exact V2]. destruct (aop_step a o) eqn:E; [|exact H].
  destruct o as [o|vs ind c ac nl]; cbn [aop_step aop_ok] in *; [eapply step_ok; eauto|]. destruct V1 as (A & B & C). eapply line_ok; eauto.
Qed.

(** ** The groups of a line with commas *)
Fixpoint line_groups (ind : option str) (vs : list item) (cm : option trivia) : list (agroup item) :=
  match vs with
  | [] => []
  | [x] => [mkGroup ind (Some x) (Some [chCOMMA]) cm]
  | x :: r => mkGroup ind (Some x) (Some [chCOMMA]) None :: line_groups (Some (L " ")) r cm
  end.
Definition comment_elems (cm : option trivia) : list aelem := match cm with Some t => [EComment t] | None => [] end.
Lemma line_loop vs cm : vs <> [] -> forall ind, group_loop (line_elems vs true ++ comment_elems cm) (mkGroup ind None None None) = line_groups ind vs cm.
Proof.
  induction vs as [|x [|y r] IH]; intros N ind; [congruence|destruct cm; reflexivity|]. rewrite line_elems_cons. cbn [app group_loop g_value g_indent g_comma g_comment]. change (inb chCOMMA [chCOMMA]) with true. change (inb chCOMMA [chSP]) with false. cbv iota.
  change (line_groups ind (x :: y :: r) cm) with (mkGroup ind (Some x) (Some [chCOMMA]) None :: line_groups (Some (L " ")) (y :: r) cm). f_equal. apply IH. discriminate.
Qed.
Lemma line_groups_bool vs cm : forall ind, filter g_bool (line_groups ind vs cm) = line_groups ind vs cm.
Proof.
  induction vs as [|x [|y r] IH]; intros ind; [reflexivity|destruct ind; reflexivity|].
  change (line_groups ind (x :: y :: r) cm) with (mkGroup ind (Some x) (Some [chCOMMA]) None :: line_groups (Some (L " ")) (y :: r) cm). cbn [filter]. replace (g_bool _) with true by (destruct ind; reflexivity). f_equal. apply IH.
Qed.
Definition line_comment (vs : list item) (c : option str) : option trivia :=
  match c with Some ((_ :: _) as c) => Some (mkTrivia (match vs with [] => [] | _ => L " " end) [] (L "# " ++ c) []) | _ => None end.
Definition first_ind (ind : str) (nl : bool) : option str := match (if nl then chLF :: ind else ind) with [] => None | s => Some s end.
Lemma first_wstr ind nl : wstr ind -> opt_ok wstr (first_ind ind nl).
Proof. intros W. unfold first_ind. destruct nl; [exact W|]. destruct ind; [exact I|exact W]. Qed.
Lemma wstr_nocomma s : wstr s -> inb chCOMMA s = false.
Proof. intros W. destruct (inb chCOMMA s) eqn:E; [|reflexivity]. apply inb_In in E. unfold wstr in W. rewrite forallb_forall in W. apply W in E. discriminate. Qed.
Lemma line_values vs ind c nl : wstr ind -> vs <> [] -> group_values (line_pieces vs ind c true nl) = line_groups (first_ind ind nl) vs (line_comment vs c).
Proof.
  intros W N. unfold group_values, line_pieces. pose proof (first_wstr ind nl W) as Wf.
  assert (E : (match c with Some ((_ :: _) as c0) => [EComment (mkTrivia (match vs with [] => [] | _ => L " " end) [] (L "# " ++ c0) [])] | _ => [] end) = comment_elems (line_comment vs c)) by (destruct c as [[|]|]; reflexivity).
  rewrite E. unfold first_ind in *. destruct (if nl then chLF :: ind else ind) as [|f0 f].
  - cbn [app]. unfold empty_group. rewrite line_loop by exact N. apply line_groups_bool.
  - cbn [app group_loop]. rewrite (wstr_nocomma (f0 :: f) Wf). cbn [filter g_bool empty_group]. rewrite line_loop by exact N. apply line_groups_bool.
Qed.
Lemma blank_values ind c nl : wstr ind -> group_values (line_pieces [] ind c true nl) =
  match line_comment [] c, first_ind ind nl with
  | Some t, o => [mkGroup o (Some INull) None (Some t)]
  | None, Some s => [mkGroup (Some s) None None None]
  | None, None => []
  end.
Proof.
  intros W. unfold group_values, line_pieces. pose proof (first_wstr ind nl W) as Wf. unfold first_ind in *. cbn [line_elems app].
  destruct (if nl then chLF :: ind else ind) as [|f0 f].
  - destruct c as [[|c0 c]|]; reflexivity.
  - cbn [app group_loop]. rewrite (wstr_nocomma (f0 :: f) Wf). destruct c as [[|c0 c]|]; reflexivity.
Qed.
(** The text of a line. *)
Definition line_text (vs : list str) (ind : str) (c : option str) (nl : bool) : str :=
  (if nl then [chLF] else []) ++ ind
  ++ (match vs with [] => [] | _ => join (L ", ") vs ++ L "," end)
  ++ (match c with Some ((_ :: _) as c) => (match vs with [] => [] | _ => L " " end) ++ L "# " ++ c | _ => [] end).
Lemma line_groups_text vs cm : vs <> [] -> forall ind, flat_map gtext (line_groups ind vs cm) =
  opt_str ind ++ join (L ", ") (map item_string vs) ++ L "," ++ match cm with Some t => comment_string t | None => [] end.
Proof.
  induction vs as [|x [|y r] IH]; intros N ind; [congruence| |].
  - cbn [line_groups flat_map map join]. unfold gtext. cbn [g_indent g_value g_comma g_comment opt_str]. rewrite app_nil_r. reflexivity.
  - change (line_groups ind (x :: y :: r) cm) with (mkGroup ind (Some x) (Some [chCOMMA]) None :: line_groups (Some (L " ")) (y :: r) cm). cbn [flat_map].
    rewrite IH by discriminate. unfold gtext at 1. cbn [g_indent g_value g_comma g_comment opt_str]. change (join (L ", ") (map item_string (x :: y :: r))) with (item_string x ++ L ", " ++ join (L ", ") (map item_string (y :: r))).
    rewrite app_nil_r, <- !app_assoc. reflexivity.
Qed.
Lemma line_text_eq vs ind c nl : wstr ind -> flat_map gtext (group_values (line_pieces vs ind c true nl)) = line_text (map item_string vs) ind c nl.
Proof.
  intros W. unfold line_text. assert (F : opt_str (first_ind ind nl) = (if nl then [chLF] else []) ++ ind) by (unfold first_ind; destruct nl; [reflexivity|]; destruct ind; reflexivity).
  rewrite app_assoc, <- F. destruct vs as [|x r].
  - rewrite blank_values by exact W. cbn [map app]. destruct c as [[|c0 c]|]; cbn [line_comment]; destruct (first_ind ind nl); cbn [flat_map gtext g_indent g_value g_comma g_comment opt_str app item_string]; unfold comment_string; cbn [tr_indent tr_comment tr_trail app]; rewrite ?app_nil_r; reflexivity.
  - rewrite line_values by (exact W || discriminate). rewrite line_groups_text by discriminate. cbn [map]. f_equal. rewrite <- app_assoc. f_equal. f_equal. destruct c as [[|c0 c]|]; cbn [line_comment]; try reflexivity.
    unfold comment_string; cbn [tr_indent tr_comment tr_trail app]; rewrite ?app_nil_r; reflexivity.
Qed.

(** ** An array written line by line *)
Definition aline : Type := list item * str * option str.
Definition add_of (x : aline) : aop := let '(vs, ind, c) := x in ALine vs ind c true true.
Definition text_of (x : aline) : str := let '(vs, ind, c) := x in line_text (map item_string vs) ind c true.
Definition values_of (x : aline) : list item := fst (fst x).
Definition nonblank (x : aline) : Prop := let '(vs, _, c) := x in vs <> [] \/ match c with Some (_ :: _) => True | _ => False end.
Definition aline_ok (x : aline) : Prop := aop_ok (add_of x).
Definition sealed (g : agroup item) : Prop := g_is_ws g = false /\ (g_real g <> None -> has_comma g).
Lemma set_comma_same g : has_comma g -> set_comma (Some [chCOMMA]) g = g.
Proof. destruct g as [i v c m]. unfold has_comma. cbn. intros ->. reflexivity. Qed.
Lemma comma_last_same gs : Forall sealed gs -> comma_last_real gs = gs.
Proof.
  intros H. destruct (comma_last_spec gs) as [[-> _]|(g1 & x & g2 & v & -> & -> & V & _)]; [reflexivity|]. apply Forall_app in H as [_ H]. inversion H as [|? ? [_ X] _]; subst. rewrite set_comma_same; [reflexivity|]. apply X. congruence.
Qed.
Lemma line_sealed vs cm : Forall real vs -> forall ind, Forall sealed (line_groups ind vs cm).
Proof.
  induction 1 as [|x vs Hx H IH]; intros ind; [constructor|]. destruct vs as [|y r].
  - constructor; [split; [reflexivity|intros _; reflexivity]|constructor].
  - change (line_groups ind (x :: y :: r) cm) with (mkGroup ind (Some x) (Some [chCOMMA]) None :: line_groups (Some (L " ")) (y :: r) cm). constructor; [split; [reflexivity|intros _; reflexivity]|apply IH].
Qed.
Lemma aline_sealed vs ind c : Forall real vs -> wstr ind -> nonblank (vs, ind, c) -> Forall sealed (group_values (line_pieces vs ind c true true)) /\ group_values (line_pieces vs ind c true true) <> [].
Proof.
  intros R W N. destruct vs as [|x r].
  - destruct N as [N|N]; [congruence|]. rewrite blank_values by exact W. destruct c as [[|c0 c]|]; try destruct N. cbn [line_comment]. split; [|discriminate]. constructor; [split; [reflexivity|intros X; exfalso; apply X; reflexivity]|constructor].
  - rewrite line_values by (exact W || discriminate). split; [apply line_sealed, R|]. cbn [line_groups]. destruct r; discriminate.
Qed.
Lemma sheet_run ls : forall a, Forall sealed (a_groups a) -> Forall aline_ok ls -> Forall nonblank ls ->
  let a' := aop_run a (map add_of ls) in Forall sealed (a_groups a') /\ flat_map gtext (a_groups a') = flat_map gtext (a_groups a) ++ flat_map text_of ls.
Proof.
  induction ls as [|[[vs ind] c] ls IH]; intros a S O N; cbn [map aop_run flat_map]; [rewrite app_nil_r; auto|]. inversion O as [|? ? O1 O']; subst. unfold aline_ok in O1. cbn [add_of aop_ok] in O1. destruct O1 as (V & W & C). inversion N as [|? ? N1 N']; subst. pose proof (plain_real _ V) as R.
  cbn [add_of aop_step]. rewrite add_line_eq by exact R. cbv zeta. rewrite (comma_last_same _ S). destruct (aline_sealed vs ind c R W N1) as [S1 _].
  match goal with |- context [aop_run ?b _] => destruct (IH b) as [I1 I2]; auto end.
  - cbn [a_groups]. apply add_groups_ok; assumption.
  - split; [exact I1|]. rewrite I2. cbn [a_groups]. destruct (add_groups_spec (a_groups a) (group_values (line_pieces vs ind c true true))) as [[-> _]|(h & w & E & X & _)].
    + rewrite flat_map_app, line_text_eq by exact W. rewrite <- app_assoc. reflexivity.
    + rewrite E in S. apply Forall_app in S as [_ S]. inversion S as [|? ? [Y _] _]; subst. congruence.
Qed.
Lemma sheet_close ls ind : Forall aline_ok ls -> Forall nonblank ls -> wstr ind ->
  flat_map gtext (a_groups (aop_run arr_empty (map add_of ls ++ [ALine [] ind None true true]))) = flat_map text_of ls ++ chLF :: ind.
Proof.
  intros O N W. assert (A : forall os1 os2 a, aop_run a (os1 ++ os2) = aop_run (aop_run a os1) os2) by (clear; intros os1; induction os1 as [|o os1 IH]; intros; cbn [app aop_run]; auto).
  rewrite A. destruct (sheet_run ls arr_empty (Forall_nil _) O N) as [S T]. set (a := aop_run arr_empty (map add_of ls)) in *. cbn [aop_run aop_step]. rewrite add_line_eq by constructor. cbv zeta. cbn [a_groups].
  rewrite (comma_last_same _ S). destruct (add_groups_spec (a_groups a) (group_values (line_pieces [] ind None true true))) as [[-> _]|(h & w & E & X & _)].
  - rewrite flat_map_app, line_text_eq by exact W. rewrite T. cbn [arr_empty a_groups flat_map app]. unfold line_text. cbn [map app]. rewrite app_nil_r. reflexivity.
  - rewrite E in S. apply Forall_app in S as [_ S]. inversion S as [|? ? [Y _] _]; subst. congruence.
Qed.
(** Its commas. *)
Lemma cl_pre b vs s : gap b -> comma_list vs s -> comma_list vs (b ++ s).
Proof.
  intros G M. destruct M as [b0 Hb|b0 v b' Hb Hb'|b0 v b' Hb Hb'|b0 v vs s Hb N M]; [constructor; apply gap_app; assumption|rewrite app_assoc..].
  - apply cl_one; auto using gap_app.
  - apply cl_trail; auto using gap_app.
  - apply cl_more; auto using gap_app.
Qed.
Lemma cl_comma v vs s : comma_list vs s -> comma_list (v :: vs) (v ++ [chCOMMA] ++ s).
Proof.
  intros M. destruct vs as [|w vs].
  - inversion M; subst. apply (cl_trail [] v s); [constructor|assumption].
  - apply (cl_more [] v (w :: vs) s); [constructor|discriminate|exact M].
Qed.
Lemma cl_join vs us s : comma_list us s -> vs <> [] -> comma_list (vs ++ us) (join (L ", ") vs ++ L "," ++ s).
Proof.
  intros M. induction vs as [|v [|w r] IH]; intros N; [congruence|apply cl_comma, M|].
  change (join (L ", ") (v :: w :: r)) with (v ++ L ", " ++ join (L ", ") (w :: r)). rewrite <- !app_assoc. cbn [app]. apply (cl_comma v (w :: r ++ us)). change (L " ") with [chSP].
  apply (cl_pre [chSP] (w :: r ++ us)); [apply gap_wstr; reflexivity|]. apply IH. discriminate.
Qed.
Fixpoint sheet_body (ls : list aline) (ind : str) : str :=
  match ls with
  | [] => ind
  | x :: r => skipn 1 (text_of x) ++ chLF :: sheet_body r ind
  end.
Lemma sheet_body_eq ls ind : flat_map text_of ls ++ chLF :: ind = chLF :: sheet_body ls ind.
Proof.
  induction ls as [|x r IH]; [reflexivity|]. cbn [flat_map sheet_body]. rewrite <- app_assoc, IH. destruct x as [[vs i] c]. reflexivity.
Qed.
Lemma sheet_commas ls ind : Forall aline_ok ls -> wstr ind -> comma_list (map item_string (flat_map values_of ls)) (sheet_body ls ind).
Proof.
  intros O W. induction ls as [|[[vs i] c] r IH]; [constructor; apply gap_wstr, W|]. inversion O as [|? ? O1 O']; subst. unfold aline_ok in O1. cbn [add_of aop_ok] in O1. destruct O1 as (V & Wi & C). specialize (IH O'). cbn [sheet_body flat_map values_of fst text_of]. unfold line_text. cbn [app skipn]. rewrite map_app.
  assert (T : forall p, wstr p -> comma_list (map item_string (flat_map values_of r)) ((match c with Some ((_ :: _) as c0) => p ++ L "# " ++ c0 | _ => [] end) ++ chLF :: sheet_body r ind)).
  { intros p Wp. destruct c as [[|c0 c]|]; [apply (cl_pre [chLF]); [apply gap_wstr; reflexivity|exact IH]| |apply (cl_pre [chLF]); [apply gap_wstr; reflexivity|exact IH]].
    rewrite <- app_assoc. apply cl_pre; [apply gap_wstr, Wp|]. change (L "# ") with [chHASH; chSP]. replace (([chHASH; chSP] ++ c0 :: c) ++ chLF :: sheet_body r ind) with ((chHASH :: (chSP :: c0 :: c) ++ [chLF]) ++ sheet_body r ind) by (cbn [app]; rewrite <- app_assoc; reflexivity).
    apply cl_pre; [|exact IH]. apply gap_comment; [|reflexivity|constructor]. constructor; [intros [X|[X _]]; [discriminate|exfalso; apply X; reflexivity]|exact C]. }
  rewrite <- app_assoc. apply cl_pre; [apply gap_wstr, Wi|]. rewrite <- app_assoc. destruct vs as [|x vs].
  - cbn [map app]. apply (T []). reflexivity.
  - cbn [map]. rewrite <- app_assoc. apply (cl_join (map item_string (x :: vs))); [|discriminate]. apply T. reflexivity.
Qed.

(** ** Adding a line without a comment to an array without comments *)
Definition nocom (g : agroup item) : Prop := g_comment g = None.
Definition nocoms (a : arr) : Prop := Forall nocom (a_groups a).
Lemma tidy_nocom ln gs : tidy ln gs -> Forall nocom gs -> tidy false gs.
Proof.
  intros (vs & tl & -> & Hv & Hc & Ht & Hn) N. apply Forall_app in N as [N1 N2]. exists vs, tl. split; [reflexivity|]. split; [|split; [exact Hc|split; [|auto]]].
  - apply Forall_forall. intros g Hg. rewrite Forall_forall in Hv, N1. destruct (Hv g Hg) as (A & B & _). split; [exact A|]. split; [exact B|]. apply N1, Hg.
  - destruct Ht as [->|(w & -> & A & B & C & _)]; [left; reflexivity|]. right. exists w. split; [reflexivity|]. split; [exact A|]. split; [exact B|]. split; [exact C|]. intros X. discriminate X.
Qed.
Lemma insert_nocom a pos it a' : nocoms a -> arr_insert a pos it = Ok a' -> nocoms a'.
Proof.
  intros H. rewrite arr_insert_eq. destruct (ins_place a pos) as [[[idx dnl] inside]|]; [|discriminate]. cbn [rbind]. intros E. inversion E; subst. unfold nocoms in *. cbn [a_groups]. unfold ins_groups.
  destruct idx as [|i]; [apply insert_Forall; [exact H|reflexivity]|]. destruct (nth_error (a_groups a) i) as [lst|] eqn:En; [|apply insert_Forall; [exact H|reflexivity]]. apply insert_Forall; [|reflexivity].
  pose proof (nth_Forall _ _ _ _ H En) as X. destruct (g_comma lst); [exact H|]. destruct (negb _); [|exact H]. apply set_Forall; [exact H|]. destruct lst. exact X.
Qed.
Lemma extend_nocom xs : forall a a', nocoms a -> arr_extend a xs = Ok a' -> nocoms a'.
Proof.
  induction xs as [|x xs IH]; intros a a' H E; cbn [arr_extend] in E; [inversion E; subst; exact H|]. destruct (arr_append a x) as [a1|] eqn:E1; [|discriminate].
  eapply IH; [|exact E]. eapply insert_nocom; [exact H|exact E1].
Qed.
Lemma del_nocom a i a' : nocoms a -> arr_del a i = Ok a' -> nocoms a'.
Proof.
  intros H. destruct a as [l gs m]. unfold arr_del. destruct (_ || _); [discriminate|]. cbn [del_loop].
  match goal with |- context [match ?x with Some _ => _ | None => _ end] => destruct x as [idx|] end; [|discriminate]. cbn [rbind]. intros E. inversion E; subst. unfold nocoms in *. cbn [a_groups] in *.
  assert (D : Forall nocom (del_group idx gs)).
  { unfold del_group. assert (D : Forall nocom (list_del idx gs)) by (unfold list_del; apply Forall_app; split; [apply Forall_firstn, H|apply Forall_skipn, H]).
    destruct idx; [|exact D]. destruct (list_del 0 gs) as [|g r]; [exact D|]. destruct (g_indent g); [|exact D]. destruct (inb _ _); [exact D|]. inversion D as [|? ? X Y]; subst. constructor; [destruct g; exact X|exact Y]. }
  unfold drop_last_comma. destruct (List.length (del_group idx gs)) as [|k]; [exact D|]. destruct (nth_error (del_group idx gs) k) as [g|] eqn:En; [|exact D]. destruct (g_is_ws g); [exact D|].
  apply set_Forall; [exact D|]. pose proof (nth_Forall _ _ _ _ D En) as X. destruct g. exact X.
Qed.
Lemma set_nocom a i it a' : nocoms a -> arr_set a i it = Ok a' -> nocoms a'.
Proof.
  intros H. destruct a as [l gs m]. unfold arr_set. destruct (_ || _); [discriminate|]. destruct (nth_error m _) as [g|]; [|discriminate]. destruct (nth_error gs g) as [grp|] eqn:E; [|discriminate].
  intros Q. inversion Q; subst. unfold nocoms in *. cbn [a_groups] in *. apply set_Forall; [exact H|]. eapply nth_Forall in E; [|exact H]. destruct grp. exact E.
Qed.
Lemma swaps_nocom k : forall i n a a', nocoms a -> arr_swaps k i n a = Ok a' -> nocoms a'.
Proof.
  induction k as [|k IH]; intros i n a a' H E; cbn [arr_swaps] in E; [inversion E; subst; exact H|].
  destruct (arr_get a _) as [y|]; [|discriminate]. cbn [rbind] in E. destruct (arr_get a _) as [x|]; [|discriminate]. cbn [rbind] in E.
  destruct (arr_set a _ y) as [a1|] eqn:Q1; [|discriminate]. cbn [rbind] in E. destruct (arr_set a1 _ x) as [a2|] eqn:Q2; [|discriminate]. cbn [rbind] in E.
  eapply IH; [|exact E]. eapply set_nocom; [|exact Q2]. eapply set_nocom; [|exact Q1]. exact H.
Qed.
Lemma step_nocom a o a' : nocoms a -> arr_step a o = Ok a' -> nocoms a'.
Proof.
  intros H. destruct o; cbn [arr_step].
  - apply insert_nocom, H.
  - apply extend_nocom, H.
  - apply insert_nocom, H.
  - apply set_nocom, H.
  - apply del_nocom, H.
  - unfold arr_pop. destruct (arr_get a i); [|discriminate]. cbn [rbind]. destruct (arr_del a i) eqn:E; [|discriminate]. cbn [rbind]. intros Q. inversion Q; subst. eapply del_nocom; eauto.
  - intros Q. inversion Q. constructor.
  - unfold arr_reverse. apply swaps_nocom, H.
Qed.
(** A line of values with commas and no comment. *)
Definition simple_op (o : aop) : Prop :=
  match o with
  | AList _ => True
  | ALine vs _ c ac _ => vs <> [] /\ ac = true /\ match c with Some (_ :: _) => False | _ => True end
  end.
Lemma line_vgroups vs : Forall real vs -> forall ind, opt_ok wstr ind -> Forall (vgroup false) (line_groups ind vs None) /\ Forall has_comma (line_groups ind vs None) /\ Forall nocom (line_groups ind vs None).
Proof.
  induction 1 as [|x vs Hx H IH]; intros ind W; [repeat split; constructor|]. assert (G : vgroup false (mkGroup ind (Some x) (Some [chCOMMA]) None)) by (apply new_vgroup; auto; [reflexivity|discriminate]). destruct vs as [|y r].
  - cbn [line_groups]. split; [|split]; constructor; try constructor; auto; apply G.
  - change (line_groups ind (x :: y :: r) None) with (mkGroup ind (Some x) (Some [chCOMMA]) None :: line_groups (Some (L " ")) (y :: r) None). destruct (IH (Some (L " "))) as (A & B & C); [reflexivity|].
    split; [|split]; constructor; auto; reflexivity.
Qed.
Lemma line_simple a vs ind c nl a' : tidy false (a_groups a) -> nocoms a -> Forall plain vs -> wstr ind -> simple_op (ALine vs ind c true nl) -> arr_add_line a vs ind c true nl = Ok a' -> tidy false (a_groups a') /\ nocoms a'.
Proof.
  intros (vs0 & tl & Eg & Hv & Hc & Ht & Hn) NC V W (N & _ & C0). pose proof (plain_real _ V) as R. rewrite add_line_eq by exact R. cbv zeta. intros E. inversion E; subst a'. clear E. unfold nocoms in *. cbn [a_groups].
  rewrite line_values by assumption. replace (line_comment vs c) with (@None trivia) by (destruct c as [[|]|]; [reflexivity|destruct C0|reflexivity]).
  destruct (line_vgroups vs R (first_ind ind nl) (first_wstr ind nl W)) as (L1 & L2 & L3). set (ng := line_groups _ _ _) in *.
  assert (Nn : ng <> []) by (unfold ng; destruct vs as [|x [|y r]]; [congruence|discriminate|discriminate]).
  assert (K : exists vs1, comma_last_real (a_groups a) = vs1 ++ tl /\ Forall (vgroup false) vs1 /\ Forall has_comma vs1 /\ Forall nocom (vs1 ++ tl)).
  { pose proof (comma_last_ok nocom (a_groups a) (fun g X => ltac:(destruct g; exact X)) NC) as NC'. destruct (comma_last_spec (a_groups a)) as [[E Z]|(g1 & x & g2 & v & E & E' & X & Z)].
    - rewrite E in *. rewrite Eg in Z. rewrite reals_app in Z. apply app_eq_nil in Z as [Z _]. exists vs0. split; [exact Eg|]. rewrite <- Eg. split; [exact Hv|]. split; [|exact NC']. destruct vs0 as [|g r]; [constructor|]. exfalso. eapply vgroup_reals; [exact Hv|discriminate|exact Z].
    - rewrite E' in *. rewrite E in Eg. destruct (tail_split false vs0 tl g1 x g2 v Hv Ht (eq_sym Eg) X) as (g3 & -> & ->).
      assert (g3 = []). { destruct g3 as [|g r]; [reflexivity|]. exfalso. rewrite reals_app in Z. apply app_eq_nil in Z as [Z _]. apply Forall_app in Hv as [_ Hv]. inversion Hv; subst. eapply vgroup_reals; [eassumption|discriminate|exact Z]. }
      subst g3. cbn [app] in *. apply commas_app in Hc as [Hc _]; [|discriminate]. apply Forall_app in Hv as [Hv1 Hv2]. inversion Hv2; subst. exists (g1 ++ [set_comma (Some [chCOMMA]) x]). rewrite <- app_assoc. cbn [app]. split; [reflexivity|]. split; [|split; [|exact NC']].
      + apply Forall_app. split; [exact Hv1|]. constructor; [apply comma_vgroup; assumption|constructor].
      + apply Forall_app. split; [exact Hc|]. constructor; [destruct x; reflexivity|constructor]. }
  destruct K as (vs1 & -> & K1 & K2 & K3). split; [|apply add_groups_ok; assumption].
  assert (Fin : tidy false ((vs1 ++ ng) ++ tl)).
  { exists (vs1 ++ ng), tl. split; [reflexivity|]. split; [apply Forall_app; auto|]. split; [apply commas_all, Forall_app; auto|]. split; [exact Ht|]. intros _. apply Forall_app in K3 as [K3 _]. apply Forall_app. auto. }
  destruct (add_groups_spec (vs1 ++ tl) ng) as [[-> Hl]|(h & w & E & X & ->)].
  - destruct Ht as [->|(w & -> & _ & Y & _)]; [rewrite app_nil_r in *; exact Fin|]. rewrite (Hl vs1 w eq_refl) in Y. discriminate.
  - destruct Ht as [->|(w' & -> & _)].
    + rewrite app_nil_r in E. subst vs1. apply Forall_app in K1 as [_ K1]. inversion K1 as [|? ? G _]; subst. rewrite (vgroup_not_ws _ _ G) in X. discriminate.
    + apply app_inj_tail in E as [-> ->]. rewrite <- app_assoc in Fin. exact Fin.
Qed.
Lemma aop_run_tidy os : forall a l, sync a l -> Forall real l -> Forall aop_ok os -> Forall simple_op os -> tidy false (a_groups a) -> nocoms a ->
  tidy false (a_groups (aop_run a os)).
Proof.
  induction os as [|o os IH]; intros a l S R V P T C; cbn [aop_run]; [exact T|]. inversion V as [|? ? V1 V2]; subst. inversion P as [|? ? P1 P2]; subst. pose proof (aop_step_sync a l o S R V1) as X.
  destruct (lstep l (as_list o)) as [l'|].
  - destruct X as (a' & E & S' & R'). rewrite E. assert (Q : tidy false (a_groups a') /\ nocoms a').
    { destruct o as [o|vs ind c ac nl]; cbn [aop_step] in E.
      - destruct (step_tidy a l o a' S R V1 (ex_intro _ false T) E) as [ln T']. pose proof (step_nocom a o a' C E) as C'. split; [eapply tidy_nocom; eauto|exact C'].
      - pose proof P1 as (_ & -> & _). destruct V1 as (A1 & A2 & _). eapply line_simple; eauto. }
    destruct Q as [T' C']. exact (IH a' l' S' R' V2 P2 T' C').
  - rewrite X. exact (IH a l S R V2 P2 T C).
Qed.
