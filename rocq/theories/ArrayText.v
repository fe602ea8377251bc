(** The text of an array: the values in order, with decoration around them. *)
From Verif Require Grammar.
From Verif Require Import Base Source Utils Items Container Arrays Parser Lemmas Wf Reader Text Render TextValue TextParse Verbatim ListSpec ArrayLemmas.
Open Scope nat_scope.

(** Decoration: whitespace, commas and comments. *)
Inductive deco : str -> Prop :=
  | deco_nil : deco []
  | deco_ws c s : is_ws c = true -> deco s -> deco (c :: s)
  | deco_comma s : deco s -> deco (chCOMMA :: s)
  | deco_comment body s : Forall (fun c => ~ Grammar.control_c c) body -> deco s -> deco (chHASH :: body ++ s).
(** [laid_out P vs s]: [s] is the texts [vs] in order with [P]-strings before,
    between and after them. *)
Inductive laid_out (P : str -> Prop) : list str -> str -> Prop :=
  | lo_nil d : P d -> laid_out P [] d
  | lo_cons d v vs s : P d -> laid_out P vs s -> laid_out P (v :: vs) (d ++ v ++ s).

Lemma deco_app a b : deco a -> deco b -> deco (a ++ b).
Proof.
  induction 1 as [|c s Hc Hs IH|s Hs IH|body s Hb0 Hs IH]; intros Hb; cbn [app]; [exact Hb|apply deco_ws; auto|apply deco_comma; auto|].
  rewrite <- app_assoc. apply deco_comment; auto.
Qed.
Lemma deco_wstr s : forallb is_ws s = true -> deco s.
Proof. induction s; cbn [forallb]; [constructor|]. intros H. apply andb_true_iff in H as [H1 H2]. apply deco_ws; auto. Qed.
Lemma lo_pre d vs s : deco d -> laid_out deco vs s -> laid_out deco vs (d ++ s).
Proof.
  intros Hd H. destruct H as [d' Hd'|d' v vs s Hd' Hs]; [constructor; apply deco_app; auto|]. rewrite app_assoc. constructor; [apply deco_app; auto|exact Hs].
Qed.

(** Groups whose decoration is decoration. *)
Definition wstr (s : str) : Prop := forallb is_ws s = true.
Definition comment_ok (t : trivia) : Prop :=
  wstr (tr_indent t) /\ tr_trail t = [] /\ exists body, tr_comment t = chHASH :: body /\ Forall (fun c => ~ Grammar.control_c c) body.
Definition opt_ok {A} (P : A -> Prop) (o : option A) : Prop := match o with Some a => P a | None => True end.
Definition gok (g : agroup item) : Prop :=
  opt_ok wstr (g_indent g) /\ opt_ok (fun c => c = [chCOMMA]) (g_comma g) /\ opt_ok comment_ok (g_comment g).
Definition elem_ok (e : aelem) : Prop :=
  match e with EWs s => wstr s \/ s = [chCOMMA] | EComment t => comment_ok t | EVal i => real i end.
Lemma opt_deco o : opt_ok wstr o -> deco (opt_str o).
Proof. destruct o; [apply deco_wstr|intros _; constructor]. Qed.
Lemma comma_deco o : opt_ok (fun c => c = [chCOMMA]) o -> deco (opt_str o).
Proof. destruct o; cbn; [intros ->; apply deco_comma, deco_nil|intros _; constructor]. Qed.
Lemma comment_deco o : opt_ok comment_ok o -> deco (match o with Some c => comment_string c | None => [] end).
Proof.
  destruct o as [t|]; [|intros _; constructor]. intros (A & B & body & C & D). unfold comment_string. rewrite B, C, app_nil_r. apply deco_app; [apply deco_wstr, A|].
  rewrite <- (app_nil_r body). apply deco_comment; [exact D|constructor].
Qed.
Lemma group_laid g vs s : gok g -> laid_out deco vs s -> laid_out deco (map item_string (greal g) ++ vs) (gtext g ++ s).
Proof.
  intros (A & B & C) H. unfold gtext. assert (T : deco (opt_str (g_comma g) ++ match g_comment g with Some c => comment_string c | None => [] end)) by (apply deco_app; [apply comma_deco, B|apply comment_deco, C]).
  unfold greal, g_real. destruct (g_value g) as [v|]; [destruct (is_null v) eqn:En|]; cbn [map app].
  - assert (Ev : item_string v = []) by (destruct v; try discriminate; reflexivity). rewrite Ev. cbn [app]. apply lo_pre; [|exact H]. apply deco_app; [apply opt_deco, A|exact T].
  - rewrite <- !app_assoc. constructor; [apply opt_deco, A|]. rewrite app_assoc. apply lo_pre; [exact T|exact H].
  - apply lo_pre; [|exact H]. apply deco_app; [apply opt_deco, A|exact T].
Qed.
Lemma groups_laid gs : Forall gok gs -> laid_out deco (map item_string (reals gs)) (flat_map gtext gs).
Proof.
  induction 1 as [|g gs Hg _ IH]; [constructor; constructor|]. rewrite reals_cons, map_app. cbn [flat_map]. apply group_laid; assumption.
Qed.
(** The multiline rendering lays the same values out. *)
Definition mtext (t : trivia) (g : agroup item) : str :=
  match g_value g with
  | None => []
  | Some x => tr_indent t ++ L "    " ++ item_string x ++ (if is_null x then [] else [chCOMMA])
              ++ (match g_comment g with Some c => comment_string c | None => [] end) ++ [chLF]
  end.
Lemma multi_string gs t : gs <> [] -> item_string (IArray gs t true) = [chLBR; chLF] ++ flat_map (mtext t) gs ++ tr_indent t ++ [chRBR].
Proof. intros H. destruct gs as [|g gs]; [congruence|]. cbn [item_string]. do 2 f_equal. apply flat_map_eq. intros [i v c m] _. reflexivity. Qed.
Lemma multi_laid t gs : wstr (tr_indent t) -> Forall gok gs -> laid_out deco (map item_string (reals gs)) (flat_map (mtext t) gs ++ tr_indent t).
Proof.
  intros Ht. induction 1 as [|g gs (A & B & C) _ IH]; [constructor; apply deco_wstr, Ht|]. rewrite reals_cons, map_app. cbn [flat_map]. rewrite <- app_assoc.
  assert (D0 : deco (tr_indent t ++ L "    ")) by (apply deco_app; apply deco_wstr; [exact Ht|reflexivity]).
  assert (DL : deco [chLF]) by (apply deco_wstr; reflexivity).
  unfold mtext at 1, greal, g_real. destruct (g_value g) as [v|]; [destruct (is_null v) eqn:En|]; cbn [map app].
  - assert (Ev : item_string v = []) by (destruct v; try discriminate; reflexivity). rewrite Ev. cbn [app]. apply lo_pre; [|exact IH]. rewrite app_assoc. apply deco_app; [exact D0|]. apply deco_app; [apply comment_deco, C|exact DL].
  - rewrite (app_assoc (tr_indent t)), <- (app_assoc (tr_indent t ++ _)), <- (app_assoc (item_string v)). constructor; [exact D0|]. apply lo_pre; [|exact IH].
    apply deco_comma. apply deco_app; [apply comment_deco, C|exact DL].
  - exact IH.
Qed.

(** Every array the parser returns is made of such elements. *)
Lemma group_loop_ok l : forall g, gok g -> Forall elem_ok l -> Forall gok (group_loop l g).
Proof.
  induction l as [|e l IH]; intros g Hg H; cbn [group_loop]; [auto|]. inversion H as [|? ? He Hl]; subst. destruct Hg as (A & B & C). destruct e as [s|t|i]; cbn [elem_ok] in He.
  - destruct (inb chCOMMA s) eqn:Ec.
    + apply IH; [|exact Hl]. repeat split; auto. cbn. destruct He as [He|He]; [|exact He]. exfalso. apply inb_In in Ec. unfold wstr in He. rewrite forallb_forall in He. apply He in Ec. discriminate.
    + constructor; [repeat split; auto|]. apply IH; [|exact Hl]. repeat split. cbn. destruct He as [He| ->]; [exact He|discriminate].
  - apply IH; [|exact Hl]. split; [exact A|split; [exact B|exact He]].
  - destruct (g_value g); [constructor; [repeat split; auto|]|]; apply IH; auto; repeat split; auto.
Qed.
Lemma group_values_ok l : Forall elem_ok l -> Forall gok (group_values l).
Proof. intros H. unfold group_values. apply Forall_forall. intros g Hg. apply filter_In in Hg as [Hg _]. revert g Hg. apply Forall_forall. apply group_loop_ok; [repeat split|exact H]. Qed.
Lemma elems_real_ok l : Forall elem_ok l -> elems_real l.
Proof. unfold elems_real. induction 1 as [|e l He Hl IH]; [constructor|]. destruct e; unfold vals in *; cbn [flat_map]; auto. constructor; auto. Qed.
Lemma take_wstr p s : (forall c, p c = true -> is_ws c = true) -> wstr (take_while p s).
Proof. intros H. unfold wstr. rewrite forallb_forall. pose proof (take_while_all p s) as F. rewrite Forall_forall in F. auto. Qed.
Lemma comment_inv st cws cm tr st' : cur st = chHASH -> parse_comment_trail false st = (Ok (cws, cm, tr), st') -> cws = [] /\ tr = [] /\ exists body, cm = chHASH :: body /\ Forall (fun c => ~ Grammar.control_c c) body.
Proof.
  intros E H. destruct (comment_trail_text false st _ st' H (or_intror E)) as (_ & C2 & C3). cbn [fst snd] in *. specialize (C2 E). destruct (C3 eq_refl) as [C4 _]. subst cws tr. split; [reflexivity|]. split; [reflexivity|].
  destruct (cur_cons st chHASH E) as [r Er]; [discriminate|].
  unfold parse_comment_trail in H. bix H. assert (Ee0 : at_end st = false) by (unfold at_end; rewrite Er; reflexivity). rewrite Ee0 in H. bix H. bix H. bix H. bix H.
  assert (E0 : adv_while is_blank (set_mark st) = set_mark st).
  { destruct st as [pre rest mk]. cbn [p_rest] in Er. subst rest. unfold adv_while. cbn. rewrite app_nil_r. reflexivity. }
  rewrite E0 in H. bi H cc s1 Q1. destruct cc as [cws' cm'].
  assert (Z : cm' = cm) by (bi H y s2 Q2; inversion H; reflexivity). subst cm'. clear H.
  assert (Ee : at_end (set_mark st) = false) by (unfold at_end; cbn [set_mark p_rest]; rewrite Er; reflexivity).
  assert (Ec : cur (set_mark st) = chHASH) by exact E. rewrite Ee, Ec in Q1. cbn [orb] in Q1.
  change (chHASH =? chLF)%N with false in Q1. change (chHASH =? chHASH)%N with true in Q1. cbn [orb] in Q1.
  bix Q1. bix Q1. bi Q1 b s2 Q2. bix Q1. bix Q1. bix Q1. set (p := fun c => negb (is_nl c) && negb (bad_comment_char c)) in *. bi Q1 u s4 Q4.
  assert (Z : s4 = adv_while p s2) by (destruct (at_end _ || _); [inversion Q4; reflexivity|discriminate]). subst s4. clear Q4. bix Q1. bix Q1.
  assert (Z : cm = extract (adv_while p s2)) by (inversion Q1; reflexivity). subst cm. clear Q1.
  apply incM_inv in Q2 as [[Q2 _]|(c & r2 & Q2 & ->)]; [cbn [set_mark p_rest] in Q2; congruence|]. cbn [set_mark p_rest p_pre p_mark] in *. rewrite Er in Q2. inversion Q2; subst c r2.
  exists (take_while p r). split.
  - unfold adv_while, extract. cbn [p_pre p_rest p_mark]. rewrite <- app_assoc. cbn [app]. unfold idx. cbn [p_pre]. rewrite skipn_app, skipn_all, Nat.sub_diag. reflexivity.
  - eapply Forall_impl; [|apply take_while_all]. unfold p. cbn beta. intros c Hc. apply andb_true_iff in Hc as [Hn Hc]. apply negb_true_iff in Hc. unfold bad_comment_char in Hc. apply orb_false_iff in Hc as [Hc1 Hc2]. apply N.eqb_neq in Hc1.
    intros [X|[X Y]]; [exact (Hc1 X)|]. rewrite (proj2 (N.leb_le c 31) X) in Hc2. cbn [andb] in Hc2. apply negb_false_iff, N.eqb_eq in Hc2. exact (Y Hc2).
Qed.
Lemma sat_real_num raw : sat real (match parse_number raw with Some v => ret (scalar_item v) | None => raise KInvalidNumber end).
Proof. destruct (parse_number raw); [apply sat_ret; exact I|apply sat_raise]. Qed.
Definition parsed_array (i : item) : Prop := exists elems, Forall elem_ok elems /\ i = IArray (group_values elems) default_trivia false.
Definition plain_value (i : item) : Prop := real i /\ match i with IArray _ _ _ => parsed_array i | _ => True end.
Lemma sat_values n : forall s, sat plain_value (parse_value s n) /\ (forall elems p, Forall elem_ok elems -> sat parsed_array (array_loop s n elems p)).
Proof.
  induction n as [|n IH]; intros s; [split; [|intros]; apply sat_raise_exn|]. destruct (IH s) as [IH1 IH2]. split.
  - cbn [parse_value]. do 2 (apply sat_bind; intros ?).
    destruct (_ =? chDQ)%N; [apply sat_bind; intros x; apply sat_ret; split; [exact I|destruct x; exact I]|].
    destruct (_ =? chSQ)%N; [apply sat_bind; intros x; apply sat_ret; split; [exact I|destruct x; exact I]|].
    destruct (_ =? 116)%N; [unfold parse_bool; sat; apply sat_ret; split; exact I|]. destruct (_ =? 102)%N; [unfold parse_bool; sat; apply sat_ret; split; exact I|].
    destruct (_ =? chLBR)%N.
    { apply sat_bind. intros _ st x st' E. apply IH2 in E; [|constructor]. pose proof E as (elems & _ & ->). split; [exact I|exact E]. }
    destruct (_ =? chLCB)%N.
    { apply sat_bind. intros _. assert (G : forall n c t, sat plain_value (inline_loop s n c t)) by (clear; induction n as [|n IH]; intros; cbn [inline_loop]; sat; apply sat_ret; split; exact I). apply G. }
    apply sat_bind. intros p.
    assert (NN : forall raw, sat plain_value (match parse_number raw with Some v => ret (scalar_item v) | None => raise KInvalidNumber end)).
    { intros raw. destruct (parse_number raw); [apply sat_ret; split; exact I|apply sat_raise]. }
    destruct (_ || _); [unfold parse_signed_value; do 2 (apply sat_bind; intros ?); apply NN|]. destruct (is_ascii_digit _); [|apply sat_raise].
    unfold parse_digit_value. do 2 (apply sat_bind; intros ?). destruct (loose_match a2) as [[[] []]|]; try apply NN; sat; apply sat_ret; split; exact I.
  - intros elems p He st x st' H. cbn [array_loop] in H. bix H. bix H. bix H. destruct (since_adv is_ws st) as [X1 _]. rewrite X1 in H. bix H.
    set (ind := take_while is_ws (p_rest st)) in *. assert (Hi : wstr ind) by (apply take_wstr; auto).
    assert (Rec : forall e p s1, elem_ok e -> array_loop s n (elems ++ [e]) p s1 = (Ok x, st') -> parsed_array x).
    { intros e p' s1 Hk Hr. eapply IH2; [|exact Hr]. apply Forall_app. auto. }
    destruct (existsb is_nl ind); [eapply Rec; [|exact H]; left; exact Hi|].
    destruct (N.eqb_spec (cur (adv_while is_ws st)) chHASH) as [Eh|].
    { bi H ct s2 Q2. destruct ct as [[cws cm] tr]. apply comment_inv in Q2 as (-> & -> & B); [|exact Eh]. eapply Rec; [|exact H]. split; [exact Hi|]. split; [reflexivity|exact B]. }
    destruct (nonempty ind); [eapply Rec; [|exact H]; left; exact Hi|]. cbv zeta in H. set (next := bind current _) in H.
    assert (Hnext : forall s2, next s2 = (Ok x, st') -> parsed_array x).
    { intros s2 HH. unfold next in HH. bix HH. match type of HH with (if ?b then _ else _) _ = _ => destruct b end.
      - bi HH y s3 Q3. eapply Rec; [|exact HH]. right. reflexivity.
      - destruct (_ =? chRBR)%N; [|discriminate]. bi HH y s3 Q3. inversion HH; subst. exists elems. auto. }
    assert (G : match parse_value s n (adv_while is_ws st) with
              | (Ok v, st'0) => if s && nonempty (tr_cws (item_trivia v)) then (Err (LossyE 2), st'0) else array_loop s n (elems ++ [EVal v]) (Some true) st'0
              | (Err (ParseErr (KUnexpectedChar _) _ _), st'0) => if s && negb (idx st'0 =? idx (adv_while is_ws st)) && (cur st'0 =? chRBR)%N then (Err (LossyE 4), st'0) else next st'0
              | (Err e, st'0) => (Err e, st'0)
              end = (Ok x, st') -> parsed_array x).
    { clear H. intros H. destruct (parse_value s n (adv_while is_ws st)) as [[v|e] s2] eqn:Ep.
      - destruct (s && _); [discriminate|]. apply IH1 in Ep as [Ep _]. eapply Rec; [|exact H]. exact Ep.
      - destruct e as [[] ? ?| | | | | | | | | | | | | |]; try discriminate. destruct (s && _ && _); [discriminate|]. eapply Hnext, H. }
    destruct p as [[|]|]; [eapply Hnext, H|apply G, H|apply G, H].
Qed.

(** The array operations keep the decoration. *)
Definition gsok (a : arr) : Prop := Forall gok (a_groups a).
Lemma ws_indent : wstr (L " ") /\ wstr (chLF :: L "    ").
Proof. split; reflexivity. Qed.
Lemma nth_Forall {A} (P : A -> Prop) l i x : Forall P l -> nth_error l i = Some x -> P x.
Proof. intros H E. apply nth_error_In in E. rewrite Forall_forall in H. auto. Qed.
Lemma set_Forall {A} (P : A -> Prop) l : forall i x, Forall P l -> P x -> Forall P (list_set i x l).
Proof. induction l as [|y l IH]; intros [|i] x H Hx; cbn [list_set]; auto; inversion H; subst; constructor; auto. Qed.
Lemma insert_Forall {A} (P : A -> Prop) l i x : Forall P l -> P x -> Forall P (list_insert i x l).
Proof. intros H Hx. unfold list_insert. apply Forall_app. split; [apply Forall_firstn, H|constructor; [exact Hx|apply Forall_skipn, H]]. Qed.
Lemma ins_groups_ok gs idx dnl inside it : Forall gok gs -> Forall gok (ins_groups gs idx dnl inside it).
Proof.
  intros H. unfold ins_groups.
  set (ind0 := match nth_error gs idx with Some g => if g_is_ws g then None else g_indent g | None => None end).
  assert (H0 : opt_ok wstr ind0).
  { unfold ind0. destruct (nth_error gs idx) as [g|] eqn:E; [|exact I]. destruct (g_is_ws g); [exact I|]. eapply nth_Forall in E; [|exact H]. apply E. }
  set (c0 := if inside then Some [chCOMMA] else None). assert (Hc : opt_ok (fun c => c = [chCOMMA]) c0) by (unfold c0; destruct inside; [reflexivity|exact I]).
  assert (F : forall ind com gs', opt_ok wstr ind -> opt_ok (fun c => c = [chCOMMA]) com -> Forall gok gs' ->
    Forall gok (list_insert idx (mkGroup (match ind with None => if (0 <? idx) || dnl then Some (if dnl then chLF :: L "    " else L " ") else None | Some _ => ind end) (Some it) com None) gs')).
  { intros ind com gs' A B C. apply insert_Forall; [exact C|]. split; [|split; [exact B|exact I]]. cbn [g_indent]. destruct ind; [exact A|]. destruct (_ || _); [|exact I]. destruct dnl; reflexivity. }
  destruct idx as [|i]; [apply F; assumption|]. destruct (nth_error gs i) as [lst|] eqn:E; [|apply F; assumption].
  pose proof (nth_Forall _ _ _ _ H E) as (A & B & C). apply F.
  - destruct ind0; assumption.
  - destruct (_ && _); assumption.
  - destruct (g_comma lst); [exact H|]. destruct (negb _); [|exact H]. apply set_Forall; [exact H|]. destruct lst. repeat split; assumption.
Qed.
Lemma insert_ok a pos it a' : gsok a -> arr_insert a pos it = Ok a' -> gsok a'.
Proof. intros H. rewrite arr_insert_eq. destruct (ins_place a pos) as [[[idx dnl] inside]|]; [|discriminate]. cbn [rbind]. intros E. inversion E; subst. apply ins_groups_ok, H. Qed.
Lemma extend_ok xs : forall a a', gsok a -> arr_extend a xs = Ok a' -> gsok a'.
Proof.
  induction xs as [|x xs IH]; intros a a' H E; cbn [arr_extend] in E; [inversion E; subst; exact H|]. destruct (arr_append a x) as [a1|] eqn:E1; [|discriminate].
  eapply IH; [|exact E]. eapply insert_ok; [exact H|exact E1].
Qed.
Lemma del_group_ok idx gs : Forall gok gs -> Forall gok (del_group idx gs).
Proof.
  intros H. unfold del_group. assert (D : Forall gok (list_del idx gs)) by (unfold list_del; apply Forall_app; split; [apply Forall_firstn, H|apply Forall_skipn, H]).
  destruct idx; [|exact D]. destruct (list_del 0 gs) as [|g r]; [exact D|]. destruct (g_indent g); [|exact D]. destruct (inb _ _); [exact D|]. inversion D as [|? ? (A & B & C) Hr]; subst. constructor; [|exact Hr].
  destruct g. repeat split; assumption.
Qed.
Lemma drop_ok gs : Forall gok gs -> Forall gok (drop_last_comma gs).
Proof.
  intros H. unfold drop_last_comma. destruct (List.length gs); [exact H|]. destruct (nth_error gs n) as [g|] eqn:E; [|exact H]. destruct (g_is_ws g); [exact H|].
  apply set_Forall; [exact H|]. eapply nth_Forall in E; [|exact H]. destruct E as (A & B & C). destruct g. repeat split; assumption.
Qed.
Lemma del_ok a i a' : gsok a -> arr_del a i = Ok a' -> gsok a'.
Proof.
  intros H. destruct a as [l gs m]. unfold arr_del. destruct (_ || _); [discriminate|]. cbn [del_loop].
  match goal with |- context [match ?x with Some _ => _ | None => _ end] => destruct x as [idx|] end; [|discriminate]. cbn [rbind]. intros E. inversion E; subst. apply drop_ok, del_group_ok, H.
Qed.
Lemma set_ok a i it a' : gsok a -> arr_set a i it = Ok a' -> gsok a'.
Proof.
  intros H. destruct a as [l gs m]. unfold arr_set. destruct (_ || _); [discriminate|]. destruct (nth_error m _) as [g|]; [|discriminate]. destruct (nth_error gs g) as [grp|] eqn:E; [|discriminate].
  intros Q. inversion Q; subst. unfold gsok. cbn [a_groups]. apply set_Forall; [exact H|]. eapply nth_Forall in E; [|exact H]. destruct E as (A & B & C). destruct grp. repeat split; assumption.
Qed.
Lemma swaps_ok k : forall i n a a', gsok a -> arr_swaps k i n a = Ok a' -> gsok a'.
Proof.
  induction k as [|k IH]; intros i n a a' H E; cbn [arr_swaps] in E; [inversion E; subst; exact H|].
  destruct (arr_get a _) as [y|]; [|discriminate]. cbn [rbind] in E. destruct (arr_get a _) as [x|]; [|discriminate]. cbn [rbind] in E.
  destruct (arr_set a _ _) as [a1|] eqn:Q1; [|discriminate]. cbn [rbind] in E. destruct (arr_set a1 _ _) as [a2|] eqn:Q2; [|discriminate]. cbn [rbind] in E.
  eapply IH; [|exact E]. eapply set_ok; [|exact Q2]. eapply set_ok; [|exact Q1]. exact H.
Qed.
Lemma step_ok a o a' : gsok a -> arr_step a o = Ok a' -> gsok a'.
Proof.
  intros H. destruct o; cbn [arr_step].
  - apply insert_ok, H.
  - apply extend_ok, H.
  - apply insert_ok, H.
  - apply set_ok, H.
  - apply del_ok, H.
  - unfold arr_pop. destruct (arr_get a i); [|discriminate]. cbn [rbind]. destruct (arr_del a i) eqn:E; [|discriminate]. cbn [rbind]. intros Q. inversion Q; subst. eapply del_ok; eauto.
  - intros Q. inversion Q. constructor.
  - unfold arr_reverse. apply swaps_ok, H.
Qed.
Lemma run_ok os : forall a, gsok a -> gsok (arr_run a os).
Proof. induction os as [|o os IH]; intros a H; cbn [arr_run]; [exact H|]. apply IH. destruct (arr_step a o) eqn:E; [eapply step_ok; eauto|exact H]. Qed.
