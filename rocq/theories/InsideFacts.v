(** InsideFacts: operations in inline tables keep them snug (C49). *)
From Verif Require Import Base Source Utils Items Container Arrays Parser Api Lemmas Wf Errors Text Render TextValue Consist OMap ContOps ContText PyVal PyItem ItemConv DumpValue Numbers Dates DumpText DumpCont DumpRender DumpDoc Grammar Denote Facts Snug Lines CompValue Written Document Edit Changes Possible ListSpec Neat EditNeat MadeSnug MadeNeat EditOps ArrayLemmas ArrayTidy.
From Coq Require Import ZifyBool ZifyNat ZifyN Permutation.
Open Scope nat_scope.

(** * One operation *)
Lemma contains_some n c k : contains (S (S (S n))) c k = match map_get k (c_map c) with
  | None => Ok false | Some (One _) => Ok true
  | Some (Many l) => match proxy (S (S n)) c l with Ok _ => Ok true | Err (NonExistentKeyE _) => Ok false | Err e => Err e end end.
Proof. reflexivity. Qed.
Lemma nullp_swap (x : list bent) e e' y : Forall nullp (x ++ e :: y) -> nullp e' -> Forall nullp (x ++ e' :: y).
Proof. intros F N. apply Forall_app in F as [A B]. inversion B; subst. apply Forall_app. split; [assumption|]. constructor; assumption. Qed.
Lemma sfields_absent c l k : consistent c -> sfields [] (c_body c) l -> map_get k (c_map c) = None -> ~ In k (map fst l).
Proof. intros C H M X. apply (proj1 (sfields_keys _ _ _ H k)) in X. destruct X as [[]|(e & I & K)]. exact (absent_key c k e C M I K). Qed.
Lemma set_body_facts c b : c_body (set_body b c) = b /\ c_parsed (set_body b c) = c_parsed c /\ c_map (set_body b c) = c_map c /\ c_dict (set_body b c) = c_dict c.
Proof. destruct c. auto. Qed.
Record kept (c : container) (o : iop) (q : list pstep) (l : list (str * node)) (c' : container) (l' : list (str * node)) : Prop := {
  kp_ok : consistent c'; kp_parsed : c_parsed c' = c_parsed c; kp_add : addable c'; kp_fields : sfields [] (c_body c') l'; kp_changed : changed_inside q o (PDict (dict_of l)) (PDict (dict_of l')) }.
Lemma add_inside c l k v o it v' c' x y it2 c1 : addable c -> (o = ISet k v \/ o = IAdd k v) -> pyeq v v' -> ~ In k (map fst l) -> pair_added c l k it c1 x y -> consistent c' -> c_parsed c' = c_parsed c -> c_body c' = x ++ (Some (skey_of_str k), it2) :: y ->
  plain it2 -> unmoved it2 -> close_set (item_trivia it2) -> snug it2 v' -> kept c o [] l c' (l ++ [(k, Value v')]).
Proof.
  intros A Ho Q Nk Pa C' P' B' P U Cl Sn. destruct (added_fields c l k it c1 x y it2 v' Pa A Nk P U Cl Sn) as [H1 A1]. split; [exact C'|exact P'|unfold addable; rewrite P', B'; exact A1|rewrite B'; exact H1|].
  rewrite dict_of_app. cbn [dict_of map fst snd node_value]. rewrite <- (app_nil_r (dict_of l)) at 1. assert (N2 : ~ In k (map fst (dict_of l ++ []))) by (rewrite app_nil_r, dict_of_keys; exact Nk). destruct Ho as [-> | ->]; constructor; assumption.
Qed.
Lemma op_inside c t new l o : consistent c -> addable c -> sfields [] (c_body c) l -> possible_inside (IInline c t new) o -> exists c' l', inline_op c t new o = Ok c' /\ kept c o [] l c' l'.
Proof.
  intros C A H Po. destruct o as [k v|k|k v|o]; cbn [possible_inside inline_op] in *; [| | |destruct Po].
  - destruct Po as [Fv Po]. destruct (made_inside v Fv) as (it & -> & P & Tr & U & v' & Sn & Q). cbn [rbind]. unfold table_set. destruct (app_fuel_pos c (Some (KSingle (skey_of_str k))) it) as [n ->]. rewrite contains_some. destruct Po as [Ab|Va].
    + pose proof (dict_get_none c k C Ab) as M. pose proof (sfields_absent c l k C H M) as Nk. rewrite M. cbn [rbind]. rewrite set_item_new by exact M. rewrite plain_name, plain_pre by exact P.
      destruct (added_pair c l k it C A H M P) as (c1 & x & y & -> & Ad). cbn [rbind tm_trivia]. pose proof Ad as [C1 P1 D1 B1 M1 _ _ _].
      destruct (first_spaces (tr_indent t)) as [ind|] eqn:Fs; [|exists c1, (l ++ [(k, Value v')]); split; [reflexivity|]; eapply add_inside; eauto; rewrite Tr; apply close_default].
      rewrite M1. assert (N1 : nth_error (c_body c1) (List.length x) = Some (Some (skey_of_str k), it)) by (rewrite B1, nth_error_app2, Nat.sub_diag by lia; reflexivity). rewrite N1.
      assert (Ei : item_indent_insert ind it = set_trivia (with_indent ind default_trivia) it). { unfold item_indent_insert. rewrite Tr. destruct it; try destruct P; cbn; rewrite app_nil_r; reflexivity. }
      rewrite Ei. set (it2 := set_trivia (with_indent ind default_trivia) it). destruct (set_body_facts c1 (list_set (List.length x) (Some (skey_of_str k), it2) (c_body c1))) as (S1 & S2 & _).
      eexists _, (l ++ [(k, Value v')]). split; [reflexivity|]. apply (add_inside c l k v (ISet k v) it v' _ x y it2 c1); auto.
      * eapply set_consistent; [exact C1|exact N1|]. subst it2. destruct it; try destruct P; reflexivity.
      * congruence.
      * rewrite S1, B1. apply set_middle.
      * apply plain_set_trivia, P.
      * apply unmoved_trivia; assumption.
      * subst it2. rewrite plain_set_back by exact P. split; [eapply spaces_blanks; exact Fs|]. split; [reflexivity|]. right. reflexivity.
      * apply snug_trivia; assumption.
    + destruct (get_plain c k C Va) as (i & sk & old & M & N & K & Pold). subst k. rewrite M. cbn [rbind]. rewrite (set_item_plain c i sk old it C M N Pold P). cbn [rbind].
      pose proof (put_ok c i sk old (copy_trivia it old) C M N) as (C' & _ & P' & _). cbv zeta in *. apply nth_error_split in N as (x & y & B & Li).
      assert (Oth : forall f, In f (x ++ y) -> ~ has_key (k_key sk) f) by (apply (others_key c _ i x (Some sk, old) y C M); [exact B|exact Li]). rewrite B in H. destruct (sfields_swap x sk old y l H Pold Oth) as (v0 & a & b & Sn0 & U0 & Cl0 & -> & Na & G).
      assert (E : copy_trivia it old = set_trivia (item_trivia old) it). { unfold copy_trivia. rewrite Tr. cbn [tr_cws tr_comment default_trivia or_str]. destruct it; try destruct P; destruct (item_trivia old); reflexivity. }
      pose proof (put_middle c i sk (copy_trivia it old) (map_set (k_key sk) (One i) (map_del (k_key sk) (c_map c))) x _ y B (eq_sym Li)) as Bp.
      eexists _, (a ++ (k_key sk, Value v') :: b). split; [reflexivity|]. split.
      * exact C'.
      * exact P'.
      * unfold addable. rewrite P', Bp. destruct A as [A|A]; [left; exact A|right]. rewrite B in A. eapply (nullp_swap x _ _ y A). right. apply plain_copy, P.
      * rewrite Bp. apply G; rewrite ?E; [apply plain_set_trivia, P|apply unmoved_trivia; assumption|rewrite plain_set_back by exact P; exact Cl0|apply snug_trivia; assumption].
      * rewrite !dict_of_app. cbn [dict_of map fst snd node_value]. fold (dict_of b). apply ci_old; [|exact Q]. rewrite map_app, !dict_of_keys, <- map_app. exact Na.
  - destruct (map_get k (c_map c)) as [ci|] eqn:M; [|apply (consistent_dict c k C) in Po; congruence]. destruct (remove_ok c k ci C M) as (c' & E & C' & _ & P' & B' & _). rewrite (erased_body c k ci C M) in B'. exists c', (dele k l). split; [exact E|].
    assert (Nd : NoDup (map fst l)) by (eapply sfields_unique; [exact H|constructor]). assert (Ik : In k (map fst l)).
    { apply (sfields_keys _ _ _ H). right. destruct C as [Mo _]. destruct (Mo _ _ M) as (A1 & _ & F). destruct (idxs ci) as [|i r] eqn:Ei; [destruct (roomy_ne _ A1 Ei)|]. rewrite Forall_forall in F. destruct (F i (or_introl eq_refl)) as (sk & v & N & K & _). exists (Some sk, v). split; [eapply nth_error_In, N|exists sk; auto]. }
    split; [exact C'|exact P'| |rewrite B'; exact (sfields_erase k _ _ _ H)|].
    + unfold addable. rewrite P', B'. destruct A as [A|A]; [left; exact A|right]. apply Forall_map. eapply Forall_impl; [|exact A]. intros e He. unfold erase. destruct (fst e); [|exact He]. destruct (str_eqb _ _); [left; reflexivity|exact He].
    + rewrite dele_dict. rewrite <- dict_of_keys in Ik, Nd. destruct (split_key k _ Ik Nd) as (a & x & b & -> & Na). rewrite (delp_split k a b x Na). constructor. exact Na.
  - destruct Po as [Fv Ab]. destruct (made_inside v Fv) as (it & -> & P & Tr & U & v' & Sn & Q). cbn [rbind]. unfold inline_add. set (it2 := set_trivia _ it). pose proof (dict_get_none c k C Ab) as M. pose proof (sfields_absent c l k C H M) as Nk.
    assert (P2 : plain it2) by (apply plain_set_trivia, P). destruct (app_fuel_pos c (Some (KSingle (skey_of_str k))) it2) as [n ->]. rewrite append_new_any by (rewrite skey_of_str_key; exact M). rewrite plain_name, plain_pre by exact P2.
    destruct (added_pair c l k it2 C A H M P2) as (c1 & x & y & -> & Ad). pose proof Ad as [C1 P1 D1 B1 _ _ _ _]. exists c1, (l ++ [(k, Value v')]). split; [reflexivity|]. apply (add_inside c l k v (IAdd k v) it2 v' c1 x y it2 c1); auto.
    + apply unmoved_trivia; assumption.
    + subst it2. rewrite plain_set_back by exact P. rewrite Tr. split; [|split; [reflexivity|right; reflexivity]]. cbn [tr_indent default_trivia]. destruct (true && (0 <? List.length (c_dict c)) && negb new)%bool; [constructor; [left; reflexivity|constructor]|constructor].
    + apply snug_trivia; assumption.
Qed.

(** * List operations *)
Definition cell (it : item) : Prop := match it with IInline _ _ _ | IArray _ _ _ => True | _ => False end.
Lemma cell_plain it : cell it -> plain it. Proof. destruct it; intros H; try destruct H; exact I. Qed.
Lemma cell_atom it : cell it -> atom it -> False. Proof. destruct it; intros [] []. Qed.
Lemma cell_unmoved it v : snug it v -> cell it -> unmoved it.
Proof. intros Sn H. inversion Sn; subst; [destruct (cell_atom it H); assumption|apply inline_unmoved|intros u; reflexivity]. Qed.
Lemma snug_real it v : snug it v -> plain it \/ cell it -> real it.
Proof. intros _ [P|P]; destruct it; try destruct P; exact I. Qed.
Lemma array_sync gs : sync (array_of gs) (reals gs).
Proof. repeat split. Qed.
Lemma set_groups a l i it a' p : sync a l -> py_index (List.length l) i = Some p -> arr_set a i it = Ok a' -> a_groups a' = plug (a_groups a) (firstn p l ++ it :: skipn (S p) l).
Proof.
  intros (Hl & Hr & Hm) Ep E. destruct a as [al gs m]. cbn [a_list a_groups a_map] in *. unfold arr_set in E. rewrite Hl, map_length in E. pose proof (py_index_bound (List.length l) i) as B. rewrite Ep in B. destruct B as (B1 & Bp & B2 & _). rewrite B1, B2 in E.
  rewrite Hm in E. destruct (reindex_some gs p) as (g1 & x & g2 & v & Ex & -> & K & V); [rewrite Hr; exact Bp|]. rewrite Ex, nth_mid, list_set_app in E. injection E as <-. cbn [a_groups].
  rewrite reals_app, reals_cons in Hr. unfold greal in Hr at 1. rewrite V in Hr. cbn [app] in Hr. assert (L : firstn p l = reals g1 /\ skipn (S p) l = reals g2) by (apply (map_split l (reals g1) v (reals g2) [] p); auto). destruct L as [-> ->].
  rewrite plug_app, firstn_app, Nat.sub_diag, firstn_all, skipn_app, Nat.sub_diag, skipn_all. cbn [firstn skipn app]. rewrite app_nil_r, plug_same. cbn [plug]. rewrite V, plug_same. reflexivity.
Qed.
Definition same_lop {A B} (R : A -> B -> Prop) (o : lop A) (o' : lop B) : Prop :=
  match o, o' with
  | LAppend x, LAppend y => R x y
  | LExtend xs, LExtend ys => Forall2 R xs ys
  | LInsert i x, LInsert j y | LSet i x, LSet j y => i = j /\ R x y
  | LDel i, LDel j | LPop i, LPop j => i = j
  | LClear, LClear | LReverse, LReverse => True
  | _, _ => False
  end.
Lemma forall2_len {A B} (R : A -> B -> Prop) l l' : Forall2 R l l' -> List.length l = List.length l'.
Proof. induction 1; cbn; congruence. Qed.
Lemma forall2_firstn {A B} (R : A -> B -> Prop) l l' : Forall2 R l l' -> forall n, Forall2 R (firstn n l) (firstn n l').
Proof. induction 1; intros [|n]; cbn [firstn]; constructor; auto. Qed.
Lemma forall2_skipn {A B} (R : A -> B -> Prop) l l' : Forall2 R l l' -> forall n, Forall2 R (skipn n l) (skipn n l').
Proof. induction 1; intros [|n]; cbn [skipn]; try constructor; auto. Qed.
Lemma forall2_rev {A B} (R : A -> B -> Prop) l l' : Forall2 R l l' -> Forall2 R (rev l) (rev l').
Proof. induction 1; cbn [rev]; [constructor|]. apply Forall2_app; [assumption|constructor; [assumption|constructor]]. Qed.
Lemma lstep_rel {A B} (R : A -> B -> Prop) l l' o o' : Forall2 R l l' -> same_lop R o o' -> forall m, lstep l o = Some m -> exists m', lstep l' o' = Some m' /\ Forall2 R m m'.
Proof.
  intros F H m E. pose proof (forall2_len R l l' F) as Le. destruct o as [x|xs|i x|i x|i|i| |], o' as [y|ys|j y|j y|j|j| |]; cbn [lstep same_lop] in *; try contradiction; try match type of H with _ /\ _ => destruct H as [Hj H] end; try (injection E as <-).
  - eexists. split; [reflexivity|]. apply Forall2_app; [exact F|constructor; [exact H|constructor]].
  - eexists. split; [reflexivity|]. apply Forall2_app; assumption.
  - subst j. rewrite Le. eexists. split; [reflexivity|]. apply Forall2_app; [apply forall2_firstn, F|constructor; [assumption|apply forall2_skipn, F]].
  - subst j. rewrite Le in E. destruct (py_index _ _) as [p|]; cbn [option_map] in *; [|discriminate]. injection E as <-. eexists. split; [reflexivity|]. apply Forall2_app; [apply forall2_firstn, F|constructor; [assumption|apply (forall2_skipn R l l' F (S p))]].
  - subst j. rewrite Le in E. destruct (py_index _ _) as [p|]; cbn [option_map] in *; [|discriminate]. injection E as <-. eexists. split; [reflexivity|]. apply Forall2_app; [apply forall2_firstn, F|apply (forall2_skipn R l l' F (S p))].
  - subst j. rewrite Le in E. destruct (py_index _ _) as [p|]; cbn [option_map] in *; [|discriminate]. injection E as <-. eexists. split; [reflexivity|]. apply Forall2_app; [apply forall2_firstn, F|apply (forall2_skipn R l l' F (S p))].
  - exists []. split; [reflexivity|constructor].
  - eexists. split; [reflexivity|]. apply forall2_rev, F.
Qed.
(** The values as items. *)
Lemma one_made v : py_fine v -> exists i v', py_item PkArray v = Ok i /\ real i /\ snug i v' /\ pyeq v v'.
Proof. intros H. destruct (proj1 (made_both v H) PkArray (or_introl eq_refl)) as (i & E & M). destruct (made_made v i M) as (R & v' & Sn & Q). exists i, v'. auto. Qed.
Lemma many_made l : Forall py_fine l -> exists its vs, array_items l = Ok its /\ Forall real its /\ Forall2 snug its vs /\ Forall2 pyeq l vs.
Proof.
  induction 1 as [|v l H _ (its & vs & E & R & F & Q)]; [exists [], []; repeat split; constructor|]. destruct (one_made v H) as (i & v' & E1 & R1 & S1 & Q1). exists (i :: its), (v' :: vs). cbn [array_items]. rewrite E1. cbn [rbind]. rewrite E. split; [reflexivity|]. split; [constructor; assumption|]. split; constructor; assumption.
Qed.
Lemma lop_made o : Forall py_fine (lop_values o) -> exists oi ov, array_lop o = Ok oi /\ Forall real (lop_values oi) /\ same_lop snug oi ov /\ same_op o ov.
Proof.
  intros F. destruct o as [x|xs|i x|i x|i|i| |]; cbn [lop_values array_lop] in *.
  - apply Forall_inv in F. destruct (one_made x F) as (it & v' & -> & R & Sn & Q). exists (LAppend it), (LAppend v'). split; [reflexivity|]. split; [constructor; [exact R|constructor]|]. split; [exact Sn|exact Q].
  - destruct (many_made xs F) as (its & vs & -> & R & Sn & Q). exists (LExtend its), (LExtend vs). auto.
  - apply Forall_inv in F. destruct (one_made x F) as (it & v' & -> & R & Sn & Q). exists (LInsert i it), (LInsert i v'). split; [reflexivity|]. split; [constructor; [exact R|constructor]|]. split; (split; [reflexivity|assumption]).
  - apply Forall_inv in F. destruct (one_made x F) as (it & v' & -> & R & Sn & Q). exists (LSet i it), (LSet i v'). split; [reflexivity|]. split; [constructor; [exact R|constructor]|]. split; (split; [reflexivity|assumption]).
  - exists (LDel i), (LDel i). repeat split. constructor.
  - exists (LPop i), (LPop i). repeat split. constructor.
  - exists LClear, LClear. repeat split. constructor.
  - exists LReverse, LReverse. repeat split. constructor.
Qed.
Lemma in_range_step {A} (l : list A) (o : lop pyv) oi (R : A -> pyv -> Prop) ov : in_range (List.length l) o -> same_lop R oi ov -> same_op o ov -> lstep l oi <> None.
Proof.
  intros H S1 S2. destruct o, ov; cbn [same_op] in S2; try contradiction; destruct oi; cbn [same_lop] in S1; try contradiction; cbn [lstep in_range] in *; try discriminate; try match type of S1 with _ /\ _ => destruct S1 as [S1 _] end; try match type of S2 with _ /\ _ => destruct S2 as [S2 _] end; subst; (destruct (py_index _ _); [discriminate|congruence]).
Qed.
Lemma array_ok gs t vs o : Forall real (reals gs) -> takes_all gs -> Forall2 snug (reals gs) vs -> possible_inside (IArray gs t false) (IArr o) ->
  exists gs' vs', array_op gs (IArr o) = Ok gs' /\ snug (IArray gs' t false) (PList vs') /\ changed_inside [] (IArr o) (PList vs) (PList vs').
Proof.
  intros R T F (Fv & Ir & Td). destruct (lop_made o Fv) as (oi & ov & E & Ro & S1 & S2). cbn [array_op]. rewrite E. cbn [rbind]. pose proof (array_sync gs) as Sy.
  pose proof (step_sync (array_of gs) (reals gs) oi Sy R Ro) as X. pose proof (in_range_step (reals gs) o oi snug ov Ir S1 S2) as Ns. destruct (lstep (reals gs) oi) as [m|] eqn:Em; [|congruence]. destruct X as (a' & Ea & (_ & Er & _) & Rm).
  destruct (lstep_rel snug _ _ oi ov F S1 m Em) as (vs' & Ev & Fm). rewrite Ea. cbn [rbind]. exists (a_groups a'), vs'. split; [reflexivity|]. split; [|econstructor; eassumption].
  assert (Tk : takes_all (a_groups a')).
  { assert (Gen : (exists ln, tidy ln gs) -> takes_all (a_groups a')). { intros Tg. destruct (step_tidy (array_of gs) (reals gs) oi a' Sy R Ro Tg Ea) as [ln Tl]. eapply tidy_takes, Tl. }
    destruct o as [x|xs|i x|i x|i|i| |]; try (apply Gen; exact Td).
    - destruct ov as [| | |j y| | | |]; try contradiction S2. destruct S2 as [-> S2]. destruct oi as [| | |j2 it| | | |]; try contradiction S1. destruct S1 as [-> S1]. cbn [arr_step lstep] in *. destruct (py_index (List.length (reals gs)) j) as [p|] eqn:Ep; [|discriminate]. cbn [option_map] in Em. injection Em as <-.
      rewrite (set_groups _ _ _ _ _ _ Sy Ep Ea). cbn [array_of a_groups]. apply takes_plug; [exact T| |exact Rm].
      pose proof (py_index_bound (List.length (reals gs)) j) as B. rewrite Ep in B. destruct B as (_ & Bp & _). assert (Le : List.length (firstn p (reals gs) ++ it :: skipn (S p) (reals gs)) = List.length (reals gs)) by (rewrite app_length, firstn_length; cbn [List.length]; rewrite skipn_length; lia).
      exact Le.
    - destruct ov; try contradiction S2. destruct oi; try contradiction S1. cbn [arr_step] in Ea. injection Ea as <-. apply (tidy_takes false). apply tidy_nil. }
  apply sg_array; [rewrite Er; exact Rm|exact Tk|apply elems_all; rewrite Er; exact Fm].
Qed.

(** * Along the indices *)
Lemma inside_set it q o it' : inside_item it q o = Ok it' -> cell it -> cell it' /\ plain it' /\ item_trivia it' = item_trivia it.
Proof.
  destruct it as [ | | | |gs t ml|c t new| | ]; intros E H; try destruct H; destruct q as [|x q]; cbn [inside_item] in E.
  - destruct (array_op gs o); cbn [rbind] in E; [|discriminate]. injection E as <-. cbn. auto.
  - destruct x as [k|i]; [discriminate|]. destruct (arr_get _ _); cbn [rbind] in E; [|discriminate]. destruct (inside_item _ q o); cbn [rbind] in E; [|discriminate]. destruct (arr_set _ _ _); cbn [rbind] in E; [|discriminate]. injection E as <-. cbn. auto.
  - destruct (inline_op c t new o); cbn [rbind] in E; [|discriminate]. injection E as <-. cbn. auto.
  - destruct x as [k|i]; [|discriminate]. destruct (map_get k (c_map c)) as [[i|]|]; try discriminate. destruct (nth_error (c_body c) i) as [[bk x]|]; [|discriminate]. destruct (inside_item x q o); cbn [rbind] in E; [|discriminate]. injection E as <-. cbn. auto.
Qed.
Lemma at_cell it q i o : inside_at it q = Some i -> possible_inside i o -> cell it.
Proof.
  intros Ia Po. destruct q as [|[k|j] q]; cbn [inside_at] in Ia; [injection Ia as ->; destruct i; try destruct Po; exact I|destruct it; try discriminate Ia; exact I..].
Qed.
Lemma step_inside c t new l s q i o : consistent c -> addable c -> sfields [] (c_body c) l -> inside_at (IInline c t new) (s :: q) = Some i -> possible_inside i o ->
  (forall x v, snug x v -> inside_at x q = Some i -> possible_inside i o -> exists x' v', inside_item x q o = Ok x' /\ snug x' v' /\ changed_inside q o v v') ->
  exists c' l', inside_item (IInline c t new) (s :: q) o = Ok (IInline c' t new) /\ kept c o (s :: q) l c' l'.
Proof.
  intros C A H Ia Po IH. destruct s as [k|j]; [|discriminate Ia]. cbn [inside_at inside_item] in *. destruct (map_get k (c_map c)) as [[j|]|] eqn:M; try discriminate. destruct (get_one _ _ _ C M) as (sk & x & N & K & _). rewrite N in *. subst k.
  pose proof (at_cell x q i o Ia Po) as Ix. pose proof (cell_plain x Ix) as Px. pose proof N as N0. apply nth_error_split in N as (xs & ys & B & Lj).
  assert (Oth : forall f, In f (xs ++ ys) -> ~ has_key (k_key sk) f) by (apply (others_key c _ j xs (Some sk, x) ys C M); [exact B|exact Lj]). rewrite B in H. destruct (sfields_swap xs sk x ys l H Px Oth) as (v0 & a & b & Sn0 & U0 & Cl0 & -> & Na & G).
  destruct (IH x v0 Sn0 Ia Po) as (x' & v1 & E & Sn1 & Ch). rewrite E. cbn [rbind]. destruct (inside_set x q o x' E Ix) as (I1 & P1 & T1).
  destruct (set_body_facts c (list_set j (Some sk, x') (c_body c))) as (S1 & S2 & _). assert (Bs : list_set j (Some sk, x') (c_body c) = xs ++ (Some sk, x') :: ys) by (rewrite B, <- Lj; apply set_middle).
  eexists _, (a ++ (k_key sk, Value v1) :: b). split; [reflexivity|]. split.
  - eapply set_consistent; [exact C|exact N0|]. destruct x; try destruct Px; destruct x'; try destruct P1; reflexivity.
  - exact S2.
  - unfold addable. rewrite S2, S1, Bs. destruct A as [A|A]; [left; exact A|right]. rewrite B in A. eapply (nullp_swap xs _ _ ys A). right. exact P1.
  - rewrite S1, Bs. apply G; [exact P1|eapply cell_unmoved; eassumption|rewrite T1; exact Cl0|exact Sn1].
  - rewrite !dict_of_app. cbn [dict_of map fst snd node_value]. fold (dict_of b). apply ci_key; [|exact Ch]. rewrite map_app, !dict_of_keys, <- map_app. exact Na.
Qed.
Lemma elem_inside gs t vs j q i o : Forall real (reals gs) -> takes_all gs -> Forall2 snug (reals gs) vs -> inside_at (IArray gs t false) (Index j :: q) = Some i -> possible_inside i o ->
  (forall x v, snug x v -> inside_at x q = Some i -> possible_inside i o -> exists x' v', inside_item x q o = Ok x' /\ snug x' v' /\ changed_inside q o v v') ->
  exists gs' vs', inside_item (IArray gs t false) (Index j :: q) o = Ok (IArray gs' t false) /\ snug (IArray gs' t false) (PList vs') /\ changed_inside (Index j :: q) o (PList vs) (PList vs').
Proof.
  intros R T F Ia Po IH. cbn [inside_at inside_item] in *. destruct (nth_error (reals gs) j) as [x|] eqn:N; [|discriminate]. pose proof (array_sync gs) as Sy. rewrite (get_nat _ _ _ _ Sy N). cbn [rbind].
  assert (Q : exists v, nth_error vs j = Some v /\ snug x v). { clear -F N. revert j N. induction F as [|a v l vs Sn _ IH]; intros [|j] N; try discriminate; cbn [nth_error] in *; [injection N as ->; exists v; auto|apply IH, N]. }
  destruct Q as (v & Nv & Sn). destruct (IH x v Sn Ia Po) as (x' & v' & E & Sn' & Ch). rewrite E. cbn [rbind]. pose proof (at_cell x q i o Ia Po) as Cx. destruct (inside_set x q o x' E Cx) as (Cx' & Px' & _).
  assert (Rx : real x') by (destruct x'; try destruct Cx'; exact I). destruct (set_nat (array_of gs) (reals gs) j x x' Sy Rx N) as (a' & Es & (_ & Er & _)). rewrite Es. cbn [rbind].
  assert (Lj : j < List.length (reals gs)) by (apply nth_error_Some; congruence). assert (Ep : py_index (List.length (reals gs)) (Z.of_nat j) = Some j).
  { unfold py_index. destruct ((_ <? _) || (_ <=? _))%Z eqn:E2; [apply orb_true_iff in E2 as [E2|E2]; lia|]. destruct (Z.of_nat j <? 0)%Z eqn:E3; [lia|]. rewrite Nat2Z.id. reflexivity. }
  pose proof (set_groups _ _ _ _ _ _ Sy Ep Es) as Eg. cbn [array_of a_groups] in Eg.
  assert (Rm : Forall real (firstn j (reals gs) ++ x' :: skipn (S j) (reals gs))) by (apply Forall_app; split; [apply Forall_firstn, R|constructor; [exact Rx|apply Forall_skipn, R]]).
  exists (a_groups a'), (firstn j vs ++ v' :: skipn (S j) vs). split; [reflexivity|]. split.
  - apply sg_array; [rewrite Er; exact Rm| |apply elems_all; rewrite Er; apply Forall2_app; [apply forall2_firstn, F|constructor; [exact Sn'|apply (forall2_skipn snug _ _ F (S j))]]].
    rewrite Eg. apply takes_plug; [exact T| |exact Rm]. rewrite app_length, firstn_length. cbn [List.length]. rewrite skipn_length. lia.
  - apply nth_error_split in Nv as (a & b & -> & <-). rewrite firstn_app, Nat.sub_diag, firstn_all. cbn [firstn]. rewrite app_nil_r. replace (skipn (S (List.length a)) (a ++ v :: b)) with b by (clear; induction a as [|? a IH]; [reflexivity|exact IH]). apply ci_index, Ch.
Qed.
Lemma inside_ok q : forall it v i o, snug it v -> inside_at it q = Some i -> possible_inside i o -> exists it' v', inside_item it q o = Ok it' /\ snug it' v' /\ changed_inside q o v v'.
Proof.
  induction q as [|s q IH]; intros it v i o Sn Ia Po; (inversion Sn as [? ? ? Ni D ? ?|c t new l C A Np H|gs t vs R T F]; subst; [destruct (cell_atom it (at_cell _ _ _ _ Ia Po) Ni)| |apply elems_all in F]).
  - cbn [inside_at inside_item] in *. injection Ia as <-. destruct (op_inside c t new l o C A H Po) as (c' & l' & -> & [K1 Kp K2 K3 K4]). cbn [rbind]. exists (IInline c' t new), (PDict (dict_of l')). split; [reflexivity|]. split; [apply sg_inline; try assumption; intros X; rewrite Kp; auto|exact K4].
  - cbn [inside_at] in Ia. injection Ia as <-. destruct o as [k v|k|k v|o]; try contradiction Po. cbn [inside_item]. destruct (array_ok gs t vs o R T F Po) as (gs' & vs' & -> & Sn' & Ch). cbn [rbind]. exists (IArray gs' t false), (PList vs'). auto.
  - destruct (step_inside c t new l s q i o C A H Ia Po) as (c' & l' & -> & [K1 Kp K2 K3 K4]); [intros x v0; apply IH|]. exists (IInline c' t new), (PDict (dict_of l')). split; [reflexivity|]. split; [apply sg_inline; try assumption; intros X; rewrite Kp; auto|exact K4].
  - destruct s as [k|j]; [discriminate Ia|]. destruct (elem_inside gs t vs j q i o R T F Ia Po) as (gs' & vs' & -> & Sn' & Ch); [intros x v0; apply IH|]. exists (IArray gs' t false), (PList vs'). auto.
Qed.

(** * In a document *)
Lemma nlines_keep k n l es l2 : nlines l es l2 -> (forall e, In e es -> ~ has_key k e) -> In (k, n) l -> In (k, n) l2.
Proof.
  induction 1 as [l|e es l l2 He _ IH|e names v es l l1 l2 He Hp _ IH]; intros H I; [exact I|apply IH; [intros f X; apply H; right; exact X|exact I]|].
  apply IH; [intros f X; apply H; right; exact X|]. eapply put_keep; [exact Hp| |exact I]. destruct (nline_head _ _ _ He) as (sk & Es & Eh). rewrite Eh. intros X. apply (H e (or_introl eq_refl)). exists sk. auto.
Qed.
Lemma nlines_swap x sk it y ps : nlines [] (x ++ (Some sk, it) :: y) ps -> plain it -> NoDup (map fst ps) -> (forall e, In e (x ++ y) -> ~ has_key (k_key sk) e) ->
  exists v a b, nline (Some sk, it) (Some ([k_key sk], v)) /\ ps = a ++ (k_key sk, Value v) :: b /\ ~ In (k_key sk) (map fst (a ++ b)) /\
    forall it' v', nline (Some sk, it') (Some ([k_key sk], v')) -> nlines [] (x ++ (Some sk, it') :: y) (a ++ (k_key sk, Value v') :: b).
Proof.
  intros H P Nd Ho. destruct (nlines_cut _ _ _ _ H) as (l1 & A & B).
  assert (Q : exists v, nline (Some sk, it) (Some ([k_key sk], v)) /\ In (k_key sk, Value v) ps).
  { inversion B as [|? ? ? ? He|? names v ? ? l2 ? He Hp Hr]; subst; [inversion He|]. inversion He; subst; [|destruct P]. exists v. split; [exact He|]. eapply nlines_keep; [exact Hr|intros e X; apply Ho, in_or_app; right; exact X|].
    inversion Hp as [? ? ? Hn|? ? ? ? ? ? Hq|? ? ? ? ? ? ? Hq]; subst; [|inversion Hq|inversion Hq]. apply in_or_app. right. left. reflexivity. }
  destruct Q as (v & Hl & I). apply in_split in I as (a & b & E). assert (Na : ~ In (k_key sk) (map fst (a ++ b))). { rewrite E in Nd. rewrite map_app in *. cbn [map fst] in Nd. apply NoDup_remove_2 in Nd. exact Nd. }
  exists v, a, b. split; [exact Hl|]. split; [exact E|]. split; [exact Na|]. intros it' v' Hl'. destruct (nlines_set x sk it it' v v' y ps H Hl Hl' Ho) as [X _]. rewrite E in X. rewrite upd_app in X. cbn [upd map fst] in X. rewrite str_eqb_refl in X. fold (upd (k_key sk) (Value v') b) in X.
  rewrite map_app, in_app_iff in Na. rewrite !upd_none in X by tauto. exact X.
Qed.
Lemma inside_done super tops path pfx c b1 b2 d k q o it i : ok_cont c -> c_body c = b1 ++ b2 -> nbody tops path pfx b1 b2 d -> get_item c k = Some it -> inside_at it q = Some i -> possible_inside i o ->
  exists c' b1' d', on_value c k (fun it => inside_item it q o) = Ok c' /\ done super tops path pfx b1 b2 d (EInside k q o) c' b1' b2 d'.
Proof.
  intros O B H Gi Ia Po. destruct (ok_parts c O) as (C & Pr & F). pose proof (at_cell it q i o Ia Po) as Ix.
  pose proof (cell_plain it Ix) as P. destruct (get_plain c k C) as (j & sk & it0 & M & N & K & _); [exists it; auto|]. unfold get_item in Gi. rewrite M, N in Gi. injection Gi as ->. unfold on_value. rewrite M, N. subst k.
  pose proof N as N'. rewrite B in N'. destruct (plain_before _ _ _ _ _ _ _ _ H N' P) as (x & y & -> & Ej).
  assert (Oth : forall f, In f (x ++ y ++ b2) -> ~ has_key (k_key sk) f). { apply (others_key c _ j x (Some sk, it) (y ++ b2) C M); [rewrite B, <- app_assoc; reflexivity|congruence]. }
  inversion H as [tp pt pf q1 q2 ps l H1 H2 Nd]; subst. assert (Np : NoDup (map fst ps)). { rewrite map_app, dict_of_keys in Nd. clear -Nd. induction (map fst ps) as [|a r IH]; [constructor|]. cbn [app] in Nd. apply NoDup_cons_iff in Nd as [A X]. constructor; [rewrite in_app_iff in A; tauto|auto]. }
  destruct (nlines_swap x sk it y ps H1 P Np) as (v & a & b & Hl & -> & Na & G). { intros e X. apply Oth. rewrite app_assoc. apply in_or_app. left. exact X. }
  assert (Sn : snug it v /\ forall it' v', plain it' -> item_trivia it' = item_trivia it -> unmoved it' -> snug it' v' -> nline (Some sk, it') (Some ([k_key sk], v'))).
  { inversion Hl as [|sk' it1 x0 Pl Sn Kd Nm Sp T St|]; subst; [|destruct P]. split; [exact Sn|]. intros it' v' P' T' U' S'. apply nl_plain; try assumption. rewrite T'. exact T. }
  destruct Sn as [Sn Re]. destruct (inside_ok q it v i o Sn Ia Po) as (it' & v' & E & Sn' & Ch). rewrite E. cbn [rbind]. destruct (inside_set it q o it' E Ix) as (I' & P' & T'). pose proof (cell_unmoved it' v' Sn' I') as U'.
  exists (set_body (list_set (List.length x) (Some sk, it') (c_body c)) c), (x ++ (Some sk, it') :: y), (dict_of (a ++ (k_key sk, Value v') :: b) ++ l). split; [reflexivity|].
  destruct (set_body_facts c (list_set (List.length x) (Some sk, it') (c_body c))) as (S1 & _). split.
  - eapply ok_set; [exact O|exact N| |]; [destruct it; try destruct P; destruct it'; try destruct P'; reflexivity|]. apply oi_other, plain_not_table, P'.
  - rewrite S1, B, <- !app_assoc. cbn [app]. rewrite set_middle. reflexivity.
  - constructor; [apply G, Re; assumption|exact H2|]. rewrite map_app, dict_of_keys in Nd |- *. rewrite map_app in Nd |- *. exact Nd.
  - rewrite !dict_of_app. cbn [dict_of map fst snd node_value]. fold (dict_of b). rewrite <- !app_assoc. cbn [app]. apply ch_inside; [|exact Ch].
    rewrite !map_app, !dict_of_keys. rewrite dict_of_app in Nd. cbn [dict_of map fst] in Nd. fold (dict_of b) in Nd. rewrite <- app_assoc, map_app in Nd. cbn [map app fst] in Nd. apply NoDup_remove_2 in Nd. rewrite map_app, !dict_of_keys in Nd. exact Nd.
  - intros Fb. eapply bare_part; [exact Fb|exact P'].
  - intros _ _. exists (Some sk, it'). split; [apply in_or_app; left; apply in_or_app; right; left; reflexivity|discriminate].
Qed.
