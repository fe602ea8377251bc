(** Comma placement and slices. *)
From Verif Require Grammar.
From Verif Require Import Base Source Utils Items Container Arrays Parser Lemmas Wf Reader Text TextValue Verbatim ListSpec ArrayLemmas ArrayText.
Open Scope nat_scope.

(** A gap: whitespace and comments that end with their line. *)
Inductive gap : str -> Prop :=
  | gap_nil : gap []
  | gap_ws c s : is_ws c = true -> gap s -> gap (c :: s)
  | gap_comment body c s : Forall (fun c => ~ Grammar.control_c c) body -> is_nl c = true -> gap s -> gap (chHASH :: body ++ c :: s).
(** [comma_list vs s]: the texts [vs] with exactly one comma between neighbours,
    none before the first, at most one after the last; gaps elsewhere. *)
Inductive comma_list : list str -> str -> Prop :=
  | cl_none b : gap b -> comma_list [] b
  | cl_one b v b' : gap b -> gap b' -> comma_list [v] (b ++ v ++ b')
  | cl_trail b v b' : gap b -> gap b' -> comma_list [v] (b ++ v ++ [chCOMMA] ++ b')
  | cl_more b v vs s : gap b -> vs <> [] -> comma_list vs s -> comma_list (v :: vs) (b ++ v ++ [chCOMMA] ++ s).
Lemma gap_app a b : gap a -> gap b -> gap (a ++ b).
Proof.
  induction 1 as [|c s Hc Hs IH|body c s Hb0 Hc Hs IH]; intros Hb; cbn [app]; [exact Hb|apply gap_ws; auto|].
  rewrite <- app_assoc. cbn [app]. apply gap_comment; auto.
Qed.
Lemma gap_wstr s : wstr s -> gap s.
Proof. unfold wstr. induction s; cbn [forallb]; [constructor|]. intros H. apply andb_true_iff in H as [H1 H2]. apply gap_ws; auto. Qed.

(** Arrays in one of two common shapes (recursive form).  [ln = false]: no comments.
    [ln = true]: every value, and the closing bracket if there are comments,
    starts a new line.  In both, a comma directly follows its value. *)
Definition starts_line (s : str) : Prop := (exists c r, s = c :: r /\ is_nl c = true) /\ inb chLF s = true.
Definition ends_blank (gs : list (agroup item)) : Prop := exists h w, gs = h ++ [w] /\ g_is_ws w = true.
Definition tidyf_group (ln : bool) (g : agroup item) (r : list (agroup item)) : Prop :=
  gok g
  /\ ((g_is_ws g = true /\ g_comma g = None /\ r = []) \/ ((exists v, g_real g = Some v) /\ (reals r <> [] -> g_comma g = Some [chCOMMA])))
  /\ (if ln then (exists s, g_indent g = Some s /\ starts_line s) /\ (g_comment g <> None -> ends_blank r) else g_comment g = None).
Fixpoint tidyf (ln : bool) (gs : list (agroup item)) : Prop :=
  match gs with
  | [] => True
  | g :: r => tidyf_group ln g r /\ tidyf ln r
  end.

Lemma text_tidyf ln gs : tidyf ln gs -> forall pre, (pre = [] \/ (ln = true /\ gs <> [] /\ exists t, comment_ok t /\ pre = comment_string t)) ->
  comma_list (map item_string (reals gs)) (pre ++ flat_map gtext gs).
Proof.
  induction gs as [|g r IH]; intros H pre Hp.
  - destruct Hp as [->|(_ & X & _)]; [|congruence]. constructor. constructor.
  - destruct H as [(Hok & Hk & Hl) Hr]. specialize (IH Hr). destruct Hok as (Ki & Kc & Km).
    assert (Hi : gap (pre ++ opt_str (g_indent g))).
    { destruct Hp as [->|(-> & _ & t & (T1 & T2 & body & T3 & T4) & ->)]; [apply gap_wstr; cbn [app]; destruct (g_indent g); [exact Ki|reflexivity]|].
      destruct Hl as [(s & Es & (c & q & -> & Hc) & _) _]. rewrite Es in *. cbn [opt_str opt_ok] in *. unfold comment_string. rewrite T2, T3, app_nil_r, <- app_assoc. apply gap_app; [apply gap_wstr, T1|].
      cbn [app]. apply gap_comment; [exact T4|exact Hc|]. apply gap_wstr. unfold wstr in Ki. cbn [forallb] in Ki. apply andb_true_iff in Ki as [_ Ki]. exact Ki. }
    rewrite reals_cons. cbn [flat_map]. destruct Hk as [(W1 & W2 & ->)|((v & Hv) & Hcm)].
    + rewrite (is_ws_real _ W1). cbn [app map reals flat_map]. rewrite app_nil_r. constructor. unfold gtext at 1. destruct g as [gi gv gc gm]. cbn [g_is_ws g_value g_comment g_comma g_indent] in *.
      destruct gv; [discriminate|]. destruct gm; [discriminate|]. subst gc. cbn [opt_str app]. rewrite app_nil_r. exact Hi.
    + assert (Gv : greal g = [v]) by (unfold greal; rewrite Hv; reflexivity). rewrite Gv. cbn [app map].
      assert (Ev : g_value g = Some v) by (unfold g_real in Hv; destruct (g_value g) as [w|]; [destruct (is_null w); congruence|discriminate]).
      set (post := match g_comment g with Some c => comment_string c | None => [] end).
      assert (Hpost : post = [] \/ (ln = true /\ r <> [] /\ exists t, comment_ok t /\ post = comment_string t)).
      { unfold post. destruct (g_comment g) as [t|] eqn:Et; [|left; reflexivity]. right. destruct ln; [|discriminate]. split; [reflexivity|]. split; [|exists t; auto].
        destruct Hl as [_ Hl]. destruct Hl as (h & w & -> & _); [discriminate|]. destruct h; discriminate. }
      specialize (IH post Hpost). unfold gtext at 1. rewrite Ev. fold post.
      replace (pre ++ (opt_str (g_indent g) ++ item_string v ++ opt_str (g_comma g) ++ post) ++ flat_map gtext r)
        with ((pre ++ opt_str (g_indent g)) ++ item_string v ++ opt_str (g_comma g) ++ (post ++ flat_map gtext r)) by (rewrite <- !app_assoc; reflexivity).
      destruct (reals r) as [|v2 vs2] eqn:Er.
      * cbn [map] in IH. assert (Gb : gap (post ++ flat_map gtext r)) by (inversion IH; subst; assumption). cbn [map].
        destruct (g_comma g) as [c|]; cbn [opt_ok opt_str app] in *; [subst c; apply cl_trail; assumption|apply cl_one; assumption].
      * rewrite (Hcm ltac:(discriminate)). cbn [opt_str]. apply cl_more; [exact Hi|discriminate|exact IH].
Qed.
(** Multiline rendering puts a comma and a line end behind every value. *)
Lemma multi_tidy t gs : wstr (tr_indent t) -> Forall gok gs -> comma_list (map item_string (reals gs)) (flat_map (mtext t) gs ++ tr_indent t).
Proof.
  intros Ht. assert (D0 : gap (tr_indent t ++ L "    ")) by (apply gap_app; apply gap_wstr; [exact Ht|reflexivity]).
  assert (DC : forall o, opt_ok comment_ok o -> gap ((match o with Some c => comment_string c | None => [] end) ++ [chLF])).
  { intros [c|] Hc; [|apply gap_wstr; reflexivity]. destruct Hc as (T1 & T2 & body & T3 & T4). unfold comment_string. rewrite T2, T3, app_nil_r, <- app_assoc. apply gap_app; [apply gap_wstr, T1|].
    cbn [app]. apply gap_comment; [exact T4|reflexivity|constructor]. }
  assert (P : forall gs pre, gap pre -> Forall gok gs -> comma_list (map item_string (reals gs)) (pre ++ flat_map (mtext t) gs ++ tr_indent t)).
  { clear gs. induction gs as [|g gs IH]; intros pre Hp H; [constructor; apply gap_app; [exact Hp|apply gap_wstr, Ht]|]. inversion H as [|? ? (A & B & C) Hr]; subst.
    rewrite reals_cons, map_app. cbn [flat_map]. rewrite <- app_assoc. unfold mtext at 1, greal, g_real. destruct (g_value g) as [v|]; [destruct (is_null v) eqn:En|]; cbn [map app].
    - assert (Ev : item_string v = []) by (destruct v; try discriminate; reflexivity). rewrite Ev. cbn [app]. rewrite (app_assoc pre). apply IH; [|exact Hr]. apply gap_app; [exact Hp|].
      rewrite app_assoc. apply gap_app; [exact D0|apply DC, C].
    - replace (pre ++ (tr_indent t ++ L "    " ++ item_string v ++ chCOMMA :: (match g_comment g with Some c => comment_string c | None => [] end) ++ [chLF]) ++ flat_map (mtext t) gs ++ tr_indent t)
        with ((pre ++ tr_indent t ++ L "    ") ++ item_string v ++ [chCOMMA] ++ (((match g_comment g with Some c => comment_string c | None => [] end) ++ [chLF]) ++ flat_map (mtext t) gs ++ tr_indent t))
        by (generalize (L "    "); intros q; repeat (rewrite <- ?app_assoc; cbn [app]); reflexivity).
      specialize (IH _ (DC _ C) Hr). assert (Gp : gap (pre ++ tr_indent t ++ L "    ")) by (apply gap_app; assumption).
      destruct (reals gs) as [|v2 vs2].
      + cbn [map] in *. assert (Gb : gap (((match g_comment g with Some c => comment_string c | None => [] end) ++ [chLF]) ++ flat_map (mtext t) gs ++ tr_indent t)) by (inversion IH; subst; assumption).
        apply cl_trail; assumption.
      + apply cl_more; [exact Gp|discriminate|exact IH].
    - apply IH; assumption. }
  intros H. exact (P gs [] gap_nil H).
Qed.


(** The same as: value groups, then possibly one blank group. *)
Definition vgroup (ln : bool) (g : agroup item) : Prop :=
  gok g /\ (exists v, g_real g = Some v) /\ (if ln then exists s, g_indent g = Some s /\ starts_line s else g_comment g = None).
Definition has_comma (g : agroup item) : Prop := g_comma g = Some [chCOMMA].
Fixpoint commas (gs : list (agroup item)) : Prop := match gs with [] => True | g :: r => (r <> [] -> has_comma g) /\ commas r end.
Definition blank_tail (ln : bool) (tl : list (agroup item)) : Prop :=
  tl = [] \/ exists w, tl = [w] /\ gok w /\ g_is_ws w = true /\ g_comma w = None /\ (ln = true -> exists s, g_indent w = Some s /\ starts_line s).
Definition tidy (ln : bool) (gs : list (agroup item)) : Prop :=
  exists vs tl, gs = vs ++ tl /\ Forall (vgroup ln) vs /\ commas vs /\ blank_tail ln tl /\ (tl = [] -> Forall (fun g => g_comment g = None) vs).

Lemma tidy_nil ln : tidy ln [].
Proof. exists [], []. split; [reflexivity|]. split; [constructor|]. split; [exact I|]. split; [left; reflexivity|]. intros _. constructor. Qed.
Lemma vgroup_not_ws ln g : vgroup ln g -> g_is_ws g = false.
Proof. intros (_ & (v & H) & _). unfold g_real in H. destruct g as [i [x|] c m]; [reflexivity|discriminate]. Qed.
Lemma vgroup_not_null ln g : vgroup ln g -> g_null g = false.
Proof. intros (_ & (v & H) & _). unfold g_real in H. unfold g_null. destruct (g_value g) as [x|]; [destruct (is_null x); [discriminate|reflexivity]|reflexivity]. Qed.
Lemma tail_reals ln tl : blank_tail ln tl -> reals tl = [].
Proof. intros [->|(w & -> & _ & W & _)]; [reflexivity|]. cbn [reals flat_map]. rewrite (is_ws_real _ W). reflexivity. Qed.
Lemma vgroup_reals ln vs : Forall (vgroup ln) vs -> vs <> [] -> reals vs <> [].
Proof. intros H N. destruct vs as [|g r]; [congruence|]. inversion H as [|? ? (_ & (v & V) & _) _]; subst. rewrite reals_cons. unfold greal. rewrite V. discriminate. Qed.
Lemma tidy_f ln gs : tidy ln gs -> tidyf ln gs.
Proof.
  intros (vs & tl & -> & Hv & Hc & Ht & Hn). induction vs as [|g vs IH].
  - cbn [app]. destruct Ht as [->|(w & -> & W1 & W2 & W3 & W4)]; [exact I|]. split; [|exact I]. split; [exact W1|]. split; [left; auto|]. destruct w as [wi [wv|] wc [wm|]]; try discriminate. destruct ln; [|reflexivity].
    split; [apply W4; reflexivity|]. intros X. exfalso. apply X. reflexivity.
  - cbn [app tidyf]. inversion Hv as [|? ? V1 V2]; subst. destruct Hc as [C1 C2]. split.
    + destruct V1 as (K1 & K2 & K3). split; [exact K1|]. split.
      * right. split; [exact K2|]. rewrite reals_app, (tail_reals _ _ Ht), app_nil_r. intros X. apply C1. intros ->. apply X. reflexivity.
      * destruct ln; [|exact K3]. split; [exact K3|]. intros X. destruct Ht as [->|(w & -> & W1 & W2 & _)].
        -- specialize (Hn eq_refl). inversion Hn; subst. congruence.
        -- exists vs, w. auto.
    + apply IH; auto. intros E. specialize (Hn E). inversion Hn; assumption.
Qed.
Lemma text_tidy ln gs : tidy ln gs -> comma_list (map item_string (reals gs)) (flat_map gtext gs).
Proof. intros H. exact (text_tidyf ln gs (tidy_f ln gs H) [] (or_introl eq_refl)). Qed.

Lemma commas_app a b : b <> [] -> (commas (a ++ b) <-> Forall has_comma a /\ commas b).
Proof.
  intros N. induction a as [|g a IH]; cbn [app commas]; [split; [intros H; split; [constructor|exact H]|intros [_ H]; exact H]|].
  rewrite IH. split.
  - intros (A & B & C). split; [constructor; [apply A; destruct a; [exact N|discriminate]|exact B]|exact C].
  - intros (A & C). inversion A; subst. auto.
Qed.
Lemma commas_init a b : commas (a ++ b) -> commas a.
Proof.
  induction a as [|g a IH]; cbn [app commas]; [auto|]. intros [A B]. split; [|auto]. intros N. apply A. intros X. apply N. apply app_eq_nil in X. apply X.
Qed.
Lemma commas_all a : Forall has_comma a -> commas a.
Proof. induction 1; cbn; auto. Qed.
(** Where a value group sits. *)
Lemma tail_split ln vs tl g1 x g2 v : Forall (vgroup ln) vs -> blank_tail ln tl -> vs ++ tl = g1 ++ x :: g2 -> g_real x = Some v ->
  exists g3, vs = g1 ++ x :: g3 /\ g2 = g3 ++ tl.
Proof.
  intros Hv Ht. revert g1. induction vs as [|y vs IH]; intros g1 E V.
  - exfalso. cbn [app] in E. destruct Ht as [->|(w & -> & _ & W & _)]; [destruct g1; discriminate|]. destruct g1 as [|z g1]; [|destruct g1; discriminate]. inversion E; subst. destruct x as [? [?|] ? ?]; discriminate.
  - inversion Hv; subst. destruct g1 as [|z g1]; cbn [app] in E.
    + inversion E; subst. exists vs. auto.
    + inversion E; subst. destruct (IH ltac:(assumption) g1 H3 V) as (g3 & -> & ->). exists g3. auto.
Qed.
Lemma new_vgroup ln ind it com : real it -> opt_ok wstr ind -> opt_ok (fun c => c = [chCOMMA]) com ->
  (ln = true -> exists s, ind = Some s /\ starts_line s) -> vgroup ln (mkGroup ind (Some it) com None).
Proof.
  intros R A B C. split; [repeat split; assumption|]. split; [exists it; unfold g_real; cbn [g_value]; rewrite (real_null _ R); reflexivity|]. destruct ln; [apply C; reflexivity|reflexivity].
Qed.
Lemma default_starts : starts_line (chLF :: L "    ").
Proof. split; [exists chLF, (L "    "); split; reflexivity|reflexivity]. Qed.
Lemma comma_vgroup ln g : vgroup ln g -> vgroup ln (set_comma (Some [chCOMMA]) g).
Proof. intros ((A & B & C) & D & E). destruct g. split; [repeat split; assumption|]. split; assumption. Qed.
Lemma tidy_tail ln w : ln = true -> blank_tail ln [w] -> exists s, g_indent w = Some s /\ inb chLF s = true.
Proof. intros -> [X|(w' & E & _ & _ & _ & W)]; [discriminate|]. inversion E; subst. destruct (W eq_refl) as (s & S1 & S2 & S3). eauto. Qed.

Lemma ins_tidy a l pos it a' : sync a l -> real it -> (exists ln, tidy ln (a_groups a)) -> arr_insert a pos it = Ok a' -> exists ln, tidy ln (a_groups a').
Proof.
  intros S R (ln & vs & tl & Eg & Hv & Hc & Ht & Hn) H. destruct (ins_place_ok a l pos S) as (idx & dnl & inside & Hp & _ & Hin & Hout).
  rewrite arr_insert_eq, Hp in H. cbn [rbind] in H. inversion H; subst a'. cbn [a_groups]. clear H Hp. rewrite Eg in *. clear S. destruct inside.
  - destruct (Hin eq_refl) as (-> & g1 & x & g2 & v & E & -> & V). clear Hin Hout. destruct (tail_split ln vs tl g1 x g2 v Hv Ht E V) as (g3 & -> & ->).
    rewrite <- app_assoc in *. cbn [app] in *. assert (Gx : vgroup ln x) by (apply Forall_app in Hv as [_ Hv]; inversion Hv; assumption).
    apply commas_app in Hc as [Hc1 Hc2]; [|discriminate]. exists ln. unfold ins_groups. rewrite nth_mid, (vgroup_not_ws _ _ Gx).
    assert (Fin : forall ind, opt_ok wstr ind -> (ln = true -> exists s, ind = Some s /\ starts_line s) ->
      tidy ln (list_insert (List.length g1) (mkGroup ind (Some it) (Some [chCOMMA]) None) (g1 ++ x :: g3 ++ tl))).
    { intros ind I1 I2. rewrite list_insert_app. exists (g1 ++ mkGroup ind (Some it) (Some [chCOMMA]) None :: x :: g3), tl. split; [rewrite <- app_assoc; reflexivity|].
      apply Forall_app in Hv as [Hv1 Hv2]. split; [|split; [|split; [exact Ht|]]].
      - apply Forall_app. split; [exact Hv1|]. constructor; [apply new_vgroup; auto; reflexivity|exact Hv2].
      - apply commas_app; [discriminate|]. split; [exact Hc1|]. split; [reflexivity|exact Hc2].
      - intros E0. specialize (Hn E0). apply Forall_app in Hn as [N1 N2]. apply Forall_app. split; [exact N1|]. constructor; [reflexivity|exact N2]. }
    assert (Ix : ln = true -> exists s, g_indent x = Some s /\ starts_line s) by (intros ->; apply Gx).
    destruct (snoc_case g1) as [->|(h & y & ->)].
    + cbn [List.length app] in *. destruct (g_indent x) as [s|] eqn:Ei.
      * apply Fin; [destruct Gx as ((Gi & _) & _); rewrite Ei in Gi; exact Gi|exact Ix].
      * apply Fin; [exact I|intros El; destruct (Ix El) as (? & ? & _); discriminate].
    + assert (Hy : has_comma y) by (apply Forall_app in Hc1 as [_ Hc1]; inversion Hc1; assumption). unfold has_comma in Hy.
      assert (Gy : gok y) by (apply Forall_app in Hv as [Hv _]; apply Forall_app in Hv as [_ Hv]; inversion Hv as [|? ? (G & _) _]; exact G).
      rewrite app_length, Nat.add_1_r. cbn [List.length]. rewrite <- (app_assoc h [y]). cbn [app]. rewrite nth_mid, Hy. rewrite andb_false_r. rewrite app_length, Nat.add_1_r, <- (app_assoc h [y]) in Fin. cbn [app List.length] in Fin.
      destruct (g_indent x) as [s|] eqn:Ei.
      * apply Fin; [destruct Gx as ((Gi & _) & _); rewrite Ei in Gi; exact Gi|exact Ix].
      * apply Fin; [|intros El; destruct (Ix El) as (? & ? & _); discriminate]. destruct (g_indent y) eqn:Ey; [destruct Gy as (Gi & _); rewrite Ey in Gi; exact Gi|]. cbn [orb Nat.ltb Nat.leb]. reflexivity.
  - destruct (Hout eq_refl) as (_ & [(-> & -> & Hlast)|(g0 & w & E & -> & W & Hd)]); clear Hin Hout.
    + (* at the very end *)
      assert (tl = []) by (destruct Ht as [->|(w & -> & _ & W & _)]; [reflexivity|]; rewrite (Hlast vs w eq_refl) in W; discriminate). subst tl. rewrite app_nil_r in *. clear Hlast.
      unfold ins_groups. assert (Ne : nth_error vs (List.length vs) = None) by (apply nth_error_None; lia). rewrite Ne.
      destruct (snoc_case vs) as [->|(h & y & ->)].
      * cbn [List.length]. exists false. exists [mkGroup None (Some it) None None], []. split; [reflexivity|]. split; [constructor; [apply new_vgroup; auto; try exact I; discriminate|constructor]|]. split; [split; [congruence|exact I]|]. split; [left; reflexivity|]. intros _. constructor; [reflexivity|constructor].
      * exists ln. rewrite app_length, Nat.add_1_r. cbn [List.length]. rewrite nth_mid. apply Forall_app in Hv as [Hv1 Hv2]. inversion Hv2 as [|? ? Gy _]; subst. rewrite (vgroup_not_null _ _ Gy). cbn [negb andb].
        apply commas_app in Hc as [Hc1 _]; [|discriminate]. specialize (Hn eq_refl). apply Forall_app in Hn as [Hn1 Hn2].
        assert (Fin : forall y', vgroup ln y' -> has_comma y' -> g_comment y' = g_comment y -> forall ind, opt_ok wstr ind -> (ln = true -> exists s, ind = Some s /\ starts_line s) ->
          tidy ln (list_insert (Datatypes.S (List.length h)) (mkGroup ind (Some it) None None) (h ++ [y']))).
        { intros y' Gy' Cy' My' ind I1 I2. exists (h ++ [y'; mkGroup ind (Some it) None None]), []. split.
          - rewrite app_nil_r. replace (Datatypes.S (List.length h)) with (List.length (h ++ [y'])) by (rewrite app_length; cbn; lia). rewrite <- (app_nil_r (h ++ [y'])) at 2. rewrite list_insert_app, <- app_assoc. reflexivity.
          - split; [|split; [|split; [left; reflexivity|]]].
            + apply Forall_app. split; [exact Hv1|]. constructor; [exact Gy'|]. constructor; [apply new_vgroup; auto; exact I|constructor].
            + apply commas_app; [discriminate|]. split; [exact Hc1|]. split; [intros _; exact Cy'|]. split; [congruence|exact I].
            + intros _. apply Forall_app. split; [exact Hn1|]. inversion Hn2; subst. constructor; [congruence|]. constructor; [reflexivity|constructor]. }
        assert (Yi : opt_ok wstr (g_indent y)) by apply Gy. assert (Yl : ln = true -> exists s, g_indent y = Some s /\ starts_line s) by (intros ->; apply Gy).
        assert (Ind : forall o, o = match g_indent y with None => if (0 <? Datatypes.S (List.length h)) || false then Some (L " ") else None | Some _ => g_indent y end -> opt_ok wstr o /\ (ln = true -> exists s, o = Some s /\ starts_line s)).
        { intros o ->. destruct (g_indent y) as [s|] eqn:Ei; [auto|]. split; [cbn; reflexivity|]. intros El. destruct (Yl El) as (? & ? & _). discriminate. }
        destruct (g_comma y) as [cy|] eqn:Ey.
        -- assert (cy = [chCOMMA]) by (destruct Gy as ((_ & B & _) & _); rewrite Ey in B; exact B). subst cy. apply Fin; auto; try exact Ey; eapply Ind; reflexivity.
        -- rewrite list_set_app. apply Fin; [apply comma_vgroup, Gy|destruct y; reflexivity|destruct y; reflexivity| |]; eapply Ind; reflexivity.
    + (* before the closing blank *)
      assert (Z : vs = g0 /\ tl = [w]).
      { destruct Ht as [->|(w' & -> & _)]; [|apply app_inj_tail in E as [-> ->]; auto]. rewrite app_nil_r in E. subst vs. exfalso. apply Forall_app in Hv as [_ Hv]. inversion Hv; subst. rewrite (vgroup_not_ws ln w) in W; [discriminate|assumption]. }
      destruct Z as [-> ->]. clear E Hn. exists ln. unfold ins_groups. rewrite nth_mid, W.
      assert (Dl : ln = true -> dnl = true) by (intros El; destruct (tidy_tail ln w El Ht) as (s & E1 & E2); rewrite E1, E2 in Hd; exact Hd). clear Hd.
      destruct (snoc_case g0) as [->|(h & y & ->)].
      * cbn [List.length app]. set (o := if (0 <? 0) || dnl then _ else _). exists [mkGroup o (Some it) None None], [w]. split; [reflexivity|]. split; [|split; [split; [congruence|exact I]|split; [exact Ht|discriminate]]].
        constructor; [|constructor]. apply new_vgroup; [exact R|unfold o; destruct dnl; [reflexivity|exact I]|exact I|]. intros El. unfold o. rewrite (Dl El). exists (chLF :: L "    "). split; [reflexivity|apply default_starts].
      * rewrite app_length, Nat.add_1_r. cbn [List.length]. rewrite <- (app_assoc h [y]). cbn [app]. rewrite nth_mid. apply Forall_app in Hv as [Hv1 Hv2]. inversion Hv2 as [|? ? Gy _]; subst. rewrite (vgroup_not_null _ _ Gy). cbn [negb andb].
        apply commas_app in Hc as [Hc1 _]; [|discriminate].
        assert (Fin : forall y', vgroup ln y' -> has_comma y' -> forall ind com, opt_ok wstr ind -> (ln = true -> exists s, ind = Some s /\ starts_line s) -> opt_ok (fun c => c = [chCOMMA]) com ->
          tidy ln (list_insert (Datatypes.S (List.length h)) (mkGroup ind (Some it) com None) (h ++ y' :: [w]))).
        { intros y' Gy' Cy' ind com I1 I2 I3. exists (h ++ [y'; mkGroup ind (Some it) com None]), [w]. split.
          - replace (Datatypes.S (List.length h)) with (List.length (h ++ [y'])) by (rewrite app_length; cbn; lia).
            replace (h ++ [y'; w]) with ((h ++ [y']) ++ [w]) by (rewrite <- app_assoc; reflexivity). rewrite list_insert_app, <- !app_assoc. reflexivity.
          - split; [|split; [|split; [exact Ht|discriminate]]].
            + apply Forall_app. split; [exact Hv1|]. constructor; [exact Gy'|]. constructor; [apply new_vgroup; auto|constructor].
            + apply commas_app; [discriminate|]. split; [exact Hc1|]. split; [intros _; exact Cy'|]. split; [congruence|exact I]. }
        assert (Yi : opt_ok wstr (g_indent y)) by apply Gy. assert (Yl : ln = true -> exists s, g_indent y = Some s /\ starts_line s) by (intros ->; apply Gy).
        assert (Yc : opt_ok (fun c => c = [chCOMMA]) (g_comma y)) by apply Gy.
        match goal with |- context [mkGroup ?x (Some it) _ None] => set (o := x) end.
        assert (Ind : opt_ok wstr o /\ (ln = true -> exists s, o = Some s /\ starts_line s)).
        { unfold o. destruct (g_indent y) as [s|] eqn:Ei; [auto|]. cbn [Nat.ltb Nat.leb orb]. split; [destruct dnl; reflexivity|]. intros El. destruct (Yl El) as (? & ? & _). discriminate. }
        destruct Ind as [Ind1 Ind2]. clearbody o.
        assert (Com : opt_ok (fun c => c = [chCOMMA]) (if dnl then g_comma y else None)) by (destruct dnl; [exact Yc|exact I]). 
        destruct (g_comma y) as [cy|] eqn:Ey.
        -- cbn [opt_ok] in Yc. subst cy. apply Fin; auto.
        -- rewrite list_set_app. apply Fin; auto; [apply comma_vgroup, Gy|destruct y; reflexivity].
Qed.
Lemma extend_tidy xs : forall a l a', sync a l -> Forall real xs -> (exists ln, tidy ln (a_groups a)) -> arr_extend a xs = Ok a' -> exists ln, tidy ln (a_groups a').
Proof.
  induction xs as [|x xs IH]; intros a l a' S R T H; cbn [arr_extend] in H; [inversion H; subst; exact T|]. inversion R; subst.
  destruct (append_sync a l x S) as (a1 & E1 & S1); [assumption|]. rewrite E1 in H. cbn [rbind] in H. eapply IH; [exact S1|assumption| |exact H].
  eapply (ins_tidy a l _ x a1 S); eauto.
Qed.
Lemma drop_commas vs : commas vs -> forall h y, vs = h ++ [y] -> commas (h ++ [set_comma None y]).
Proof.
  intros H h y ->. apply commas_app in H as [H _]; [|discriminate]. apply commas_app; [discriminate|]. split; [exact H|]. split; [congruence|exact I].
Qed.
Lemma drop_last_ws gs w : g_is_ws w = true -> drop_last_comma (gs ++ [w]) = gs ++ [w].
Proof. intros W. unfold drop_last_comma. rewrite app_length, Nat.add_1_r, nth_mid, W. reflexivity. Qed.
Lemma drop_last_val gs g : g_is_ws g = false -> drop_last_comma (gs ++ [g]) = gs ++ [set_comma None g].
Proof. intros W. unfold drop_last_comma. rewrite app_length, Nat.add_1_r, nth_mid, W. apply list_set_app. Qed.
Lemma drop_tidy ln gs : tidy ln gs -> tidy ln (drop_last_comma gs).
Proof.
  intros (vs & tl & -> & Hv & Hc & Ht & Hn). destruct Ht as [->|(w & -> & W)].
  - rewrite app_nil_r. specialize (Hn eq_refl). destruct (snoc_case vs) as [->|(h & y & ->)]; [exact (tidy_nil ln)|].
    apply Forall_app in Hv as [Hv1 Hv2]. inversion Hv2 as [|? ? Gy _]; subst. rewrite (drop_last_val _ _ (vgroup_not_ws _ _ Gy)). exists (h ++ [set_comma None y]), []. rewrite app_nil_r. split; [reflexivity|]. split; [|split; [|split; [left; reflexivity|]]].
    + apply Forall_app. split; [exact Hv1|]. constructor; [|constructor]. destruct Gy as ((A & B & C) & D & E). destruct y. split; [repeat split; assumption|]. split; assumption.
    + eapply drop_commas; [exact Hc|reflexivity].
    + intros _. apply Forall_app in Hn as [N1 N2]. apply Forall_app. split; [exact N1|]. inversion N2; subst. destruct y. constructor; [assumption|constructor].
  - rewrite drop_last_ws by apply W. exists vs, [w]. split; [reflexivity|]. split; [exact Hv|]. split; [exact Hc|]. split; [right; exists w; auto|exact Hn].
Qed.
Lemma noindent_vgroup g : vgroup false g -> vgroup false (set_gindent None g).
Proof. intros ((A & B & C) & D & E). destruct g. split; [repeat split; assumption|]. split; assumption. Qed.
Lemma del_group_tidy ln g1 x g2 : (exists v, g_real x = Some v) -> tidy ln (g1 ++ x :: g2) -> tidy ln (del_group (List.length g1) (g1 ++ x :: g2)).
Proof.
  intros (v & V) (vs & tl & E & Hv & Hc & Ht & Hn). symmetry in E. destruct (tail_split ln vs tl g1 x g2 v Hv Ht E V) as (g3 & -> & ->). clear E.
  unfold del_group. rewrite list_del_app. apply Forall_app in Hv as [Hv1 Hv2]. inversion Hv2 as [|? ? _ Hv3]; subst. apply commas_app in Hc as [Hc1 [_ Hc2]]; [|discriminate].
  assert (T0 : tidy ln (g1 ++ g3 ++ tl)).
  { exists (g1 ++ g3), tl. split; [apply app_assoc|]. split; [apply Forall_app; auto|]. split; [|split; [exact Ht|]].
    - destruct g3 as [|z g3]; [rewrite app_nil_r; apply commas_all, Hc1|]. apply commas_app; [discriminate|]. auto.
    - intros E0. specialize (Hn E0). apply Forall_app in Hn as [N1 N2]. inversion N2; subst. apply Forall_app; auto. }
  destruct g1 as [|y g1]; [|exact T0]. cbn [List.length app] in *. destruct g3 as [|z g3]; cbn [app] in *.
  - destruct Ht as [->|(w & -> & W1 & W2 & W3 & W4)]; [exact T0|]. destruct (g_indent w) as [s|] eqn:Ei; [|exact T0]. destruct (inb chLF s) eqn:El; [exact T0|].
    destruct ln; [destruct (W4 eq_refl) as (s' & E1 & _ & E2); congruence|]. exists [], [set_gindent None w]. split; [reflexivity|]. split; [constructor|]. split; [exact I|]. split; [|discriminate]. right. exists (set_gindent None w). split; [reflexivity|].
    destruct w as [wi wv wc wm]. cbn [g_indent g_comma set_gindent] in *. destruct W1 as (A & B & C). repeat split; auto. discriminate.
  - destruct (g_indent z) as [s|] eqn:Ei; [|exact T0]. destruct (inb chLF s) eqn:El; [exact T0|]. inversion Hv3 as [|? ? Gz Hv4]; subst.
    destruct ln; [destruct Gz as (_ & _ & s' & E1 & _ & E2); congruence|]. exists (set_gindent None z :: g3), tl. split; [reflexivity|]. split; [constructor; [apply noindent_vgroup, Gz|exact Hv4]|]. split; [|split; [exact Ht|]].
    + destruct Hc2 as [C1 C2]. split; [intros N; specialize (C1 N); destruct z; exact C1|exact C2].
    + intros E0. specialize (Hn E0). inversion Hn as [|? ? _ N2]; subst. inversion N2; subst. constructor; [destruct z; assumption|assumption].
Qed.
Lemma del_tidy a l i a' : sync a l -> (exists ln, tidy ln (a_groups a)) -> arr_del a i = Ok a' -> exists ln, tidy ln (a_groups a').
Proof.
  intros (Hl & Hr & Hm) (ln & T) H. exists ln. destruct a as [al gs m]. cbn [a_list a_groups a_map] in *. unfold arr_del in H. destruct (_ || _); [discriminate|]. cbn [del_loop] in H.
  match type of H with context [match ?x with Some _ => _ | None => _ end] => destruct x as [idx|] eqn:Ex end; [|discriminate]. cbn [rbind] in H. inversion H; subst a'. cbn [a_groups].
  match type of Ex with (if ?b then _ else _) = _ => destruct b; [discriminate|] end. rewrite Hm in Ex. apply reindex_nth in Ex as (g1 & x & g2 & v & -> & -> & _ & V).
  apply drop_tidy. cbn [Nat.add]. apply del_group_tidy; eauto.
Qed.
Lemma set_tidy a l i it a' : sync a l -> real it -> (exists ln, tidy ln (a_groups a)) -> arr_set a i it = Ok a' -> exists ln, tidy ln (a_groups a').
Proof.
  intros (Hl & Hr & Hm) R (ln & vs & tl & E & Hv & Hc & Ht & Hn) H. exists ln. destruct a as [al gs m]. cbn [a_list a_groups a_map] in *. unfold arr_set in H. destruct (_ || _); [discriminate|].
  destruct (nth_error m _) as [g|] eqn:Ex; [|discriminate]. destruct (nth_error gs g) as [grp|] eqn:Eg; [|discriminate]. inversion H; subst a'. cbn [a_groups]. rewrite Hm in Ex.
  apply reindex_nth in Ex as (g1 & x & g2 & v & Eq & -> & _ & V). rewrite Eq in *. cbn [Nat.add] in *. rewrite nth_mid in Eg. inversion Eg; subst grp. rewrite list_set_app.
  symmetry in E. destruct (tail_split ln vs tl g1 x g2 v Hv Ht E V) as (g3 & -> & ->). exists (g1 ++ set_gvalue (Some it) x :: g3), tl. split; [rewrite <- app_assoc; reflexivity|].
  apply Forall_app in Hv as [Hv1 Hv2]. inversion Hv2 as [|? ? Gx Hv3]; subst. apply commas_app in Hc as [Hc1 [Hc2 Hc3]]; [|discriminate]. split; [|split; [|split; [exact Ht|]]].
  - apply Forall_app. split; [exact Hv1|]. constructor; [|exact Hv3]. destruct Gx as ((A & B & C) & D & F). destruct x as [xi xv xc xm]. split; [repeat split; assumption|]. split; [|exact F].
    exists it. unfold g_real. cbn [set_gvalue g_value]. rewrite (real_null _ R). reflexivity.
  - apply commas_app; [discriminate|]. split; [exact Hc1|]. split; [|exact Hc3]. destruct x. exact Hc2.
  - intros E0. specialize (Hn E0). apply Forall_app in Hn as [N1 N2]. inversion N2; subst. apply Forall_app. split; [exact N1|]. constructor; [destruct x; assumption|assumption].
Qed.
Lemma get_real a l i v : sync a l -> Forall real l -> arr_get a i = Ok v -> real v.
Proof.
  intros S R H. pose proof (get_sync a l i S) as G. destruct (py_index _ _) as [p|]; [|congruence]. destruct G as (w & W & G). assert (w = v) by congruence. subst w.
  rewrite Forall_forall in R. apply R. eapply nth_error_In, W.
Qed.
Lemma swaps_tidy k : forall i n a l a', sync a l -> Forall real l -> (exists ln, tidy ln (a_groups a)) -> arr_swaps k i n a = Ok a' -> exists ln, tidy ln (a_groups a').
Proof.
  induction k as [|k IH]; intros i n a l a' S R T E; cbn [arr_swaps] in E; [inversion E; subst; exact T|].
  destruct (arr_get a _) as [y|] eqn:Qy; [|discriminate]. cbn [rbind] in E. destruct (arr_get a (Z.of_nat i)) as [x|] eqn:Qx; [|discriminate]. cbn [rbind] in E.
  destruct (arr_set a _ _) as [a1|] eqn:Q1; [|discriminate]. cbn [rbind] in E. destruct (arr_set a1 _ _) as [a2|] eqn:Q2; [|discriminate]. cbn [rbind] in E.
  pose proof (get_real _ _ _ _ S R Qy) as Ry. pose proof (get_real _ _ _ _ S R Qx) as Rx.
  assert (S1 : exists l1, sync a1 l1 /\ Forall real l1).
  { pose proof (step_sync a l (LSet (Z.of_nat i) y) S R) as X. cbn [arr_step] in X. rewrite Q1 in X. destruct (lstep _ _) as [l1|]; [destruct X as (a'' & X1 & X2); [repeat constructor; assumption|]; inversion X1; subst; eauto|discriminate X; repeat constructor; assumption]. }
  destruct S1 as (l1 & S1 & R1).
  assert (S2 : exists l2, sync a2 l2 /\ Forall real l2).
  { match type of Q2 with arr_set a1 ?j x = _ => pose proof (step_sync a1 l1 (LSet j x) S1 R1) as X end. cbn [arr_step] in X. rewrite Q2 in X. destruct (lstep _ _) as [l2|]; [destruct X as (a'' & X1 & X2); [repeat constructor; assumption|]; inversion X1; subst; eauto|discriminate X; repeat constructor; assumption]. }
  destruct S2 as (l2 & S2 & R2). eapply (IH _ _ a2 l2); eauto. eapply (set_tidy a1 l1 _ x a2 S1 Rx); eauto. eapply (set_tidy a l _ y a1 S Ry); eauto.
Qed.
Lemma step_tidy a l o a' : sync a l -> Forall real l -> Forall real (lop_values o) -> (exists ln, tidy ln (a_groups a)) -> arr_step a o = Ok a' -> exists ln, tidy ln (a_groups a').
Proof.
  intros S R V T. destruct o; cbn [arr_step lop_values] in *.
  - inversion V; subst. intros. eapply ins_tidy; eauto.
  - intros. eapply extend_tidy; eauto.
  - inversion V; subst. intros. eapply ins_tidy; eauto.
  - inversion V; subst. intros. eapply set_tidy; eauto.
  - intros. eapply del_tidy; eauto.
  - unfold arr_pop. destruct (arr_get a i); [|discriminate]. cbn [rbind]. destruct (arr_del a i) eqn:E; [|discriminate]. cbn [rbind]. intros Q. inversion Q; subst. eapply del_tidy; eauto.
  - intros Q. inversion Q. exists false. apply tidy_nil.
  - unfold arr_reverse. intros. eapply swaps_tidy; eauto.
Qed.
Lemma run_tidy os : forall a l, sync a l -> Forall real l -> Forall (fun o => Forall real (lop_values o)) os -> (exists ln, tidy ln (a_groups a)) -> exists ln, tidy ln (a_groups (arr_run a os)).
Proof.
  induction os as [|o os IH]; intros a l S R V T; cbn [arr_run]; [exact T|]. inversion V as [|? ? V1 V2]; subst. pose proof (step_sync a l o S R V1) as X.
  destruct (lstep l o) as [l'|].
  - destruct X as (a' & E & S' & R'). rewrite E. apply (IH a' l' S' R' V2). exact (step_tidy a l o a' S R V1 T E).
  - rewrite X. exact (IH a l S R V2 T).
Qed.

(** ** Slices within bounds *)
Lemma reindex_app a : forall b i, reindex i (a ++ b) = reindex i a ++ reindex (i + List.length a) b.
Proof.
  induction a as [|g a IH]; intros b i; cbn [app reindex List.length]; [rewrite Nat.add_0_r; reflexivity|].
  destruct (g_real g); cbn [app]; rewrite IH; replace (S i + List.length a) with (i + S (List.length a)) by lia; reflexivity.
Qed.
Lemma range_desc_S a b : (a < b)%Z -> range_desc a b = (b - 1)%Z :: range_desc a (b - 1).
Proof.
  intros H. unfold range_desc. replace (Z.to_nat (b - a)) with (S (Z.to_nat (b - 1 - a))) by lia. cbn [seq map]. f_equal; [lia|].
  rewrite <- seq_shift, map_map. apply map_ext. intros k. lia.
Qed.
Lemma range_desc_nil a b : (b <= a)%Z -> range_desc a b = [].
Proof. intros H. unfold range_desc. replace (Z.to_nat (b - a)) with 0 by lia. reflexivity. Qed.
Lemma del_range i : forall k m cur l1 l2, (forall x, x < i + k -> nth_error (reindex 0 cur) x = nth_error m x) -> reals cur = l1 ++ l2 -> List.length l1 = i + k ->
  exists gs', del_loop (range_desc (Z.of_nat i) (Z.of_nat (i + k))) m true cur = Ok gs' /\ reals gs' = firstn i l1 ++ l2.
Proof.
  induction k as [|k IH]; intros m cur l1 l2 Hm Hr Hl.
  - rewrite range_desc_nil by lia. exists cur. split; [reflexivity|]. rewrite Nat.add_0_r in Hl. rewrite <- Hl, firstn_all. exact Hr.
  - rewrite range_desc_S by lia. replace (Z.of_nat (i + S k) - 1)%Z with (Z.of_nat (i + k)) by lia. cbn [del_loop].
    destruct (Z.ltb_spec (Z.of_nat (i + k)) 0); [lia|]. rewrite Nat2Z.id, <- Hm by lia.
    destruct (reindex_some cur (i + k)) as (g1 & x & g2 & v & -> & -> & K & V); [rewrite Hr, app_length; lia|].
    rewrite reals_app, reals_cons in Hr. unfold greal at 1 in Hr. rewrite V in Hr. cbn [app] in Hr.
    destruct (snoc_case l1) as [->|(l0 & z & ->)]; [cbn in Hl; lia|]. rewrite app_length in Hl. cbn [List.length] in Hl.
    rewrite <- app_assoc in Hr. cbn [app] in Hr.
    assert (Q : reals g1 = l0 /\ reals g2 = l2).
    { assert (Len : List.length (reals g1) = List.length l0) by lia. clear -Hr Len. revert l0 Hr Len. induction (reals g1) as [|q r IH]; intros [|p l0] Hr Len; cbn in *; try lia; [inversion Hr; auto|].
      inversion Hr; subst. destruct (IH l0) as [-> ->]; auto. }
    destruct Q as [Q1 Q2].
    assert (D : exists g2', del_group (List.length g1) (g1 ++ x :: g2) = g1 ++ g2' /\ reals g2' = reals g2).
    { unfold del_group. rewrite list_del_app. destruct g1 as [|y g1]; [|exists g2; auto]. cbn [List.length app]. destruct g2 as [|y g2]; [exists []; auto|]. destruct (g_indent y) as [s|]; [|exists (y :: g2); auto].
      destruct (inb chLF s); [exists (y :: g2); auto|]. exists (set_gindent None y :: g2). rewrite !reals_cons, greal_indent. auto. }
    destruct D as (g2' & -> & D2). destruct (IH m (g1 ++ g2') l0 l2) as (gs' & E & F).
    + intros j Hj. rewrite <- Hm by lia. rewrite !reindex_app. rewrite !nth_error_app1 by (rewrite reindex_length; lia). reflexivity.
    + rewrite reals_app, D2, Q1, Q2. reflexivity.
    + lia.
    + exists gs'. split; [exact E|]. rewrite F. f_equal. rewrite firstn_app. replace (i - List.length l0) with 0 by lia. cbn [firstn]. rewrite app_nil_r. reflexivity.
Qed.
Lemma slice_sync a l i j : sync a l -> i <= j -> j <= List.length l -> 0 < j ->
  exists a', arr_del_slice a (Some (Z.of_nat i)) (Some (Z.of_nat j)) = Ok a' /\ sync a' (firstn i l ++ skipn j l).
Proof.
  intros (Hl & Hr & Hm) Hij Hj Hp. destruct a as [al gs m]. cbn [a_list a_groups a_map] in *. unfold arr_del_slice.
  replace (match Z.of_nat j with 0%Z => Z.of_nat (List.length al) | Zpos _ => Z.of_nat j | Zneg _ => Z.of_nat j end) with (Z.of_nat j) by (destruct j; [lia|reflexivity]).
  destruct (del_range i (j - i) m gs (firstn j l) (skipn j l)) as (gs' & E & F).
  - intros x _. rewrite Hm. reflexivity.
  - rewrite firstn_skipn. exact Hr.
  - rewrite firstn_length. lia.
  - replace (i + (j - i)) with j in E by lia. rewrite E. cbn [rbind]. eexists. split; [reflexivity|]. split; [|split; [|reflexivity]]; cbn [a_list a_groups].
    + rewrite Hl. unfold list_del_slice, slice_bounds. rewrite map_length. destruct (Z.ltb_spec (Z.of_nat i) 0); [lia|]. destruct (Z.ltb_spec (Z.of_nat j) 0); [lia|].
      rewrite !Z.min_l by lia. rewrite !Nat2Z.id. destruct (Z.ltb_spec (Z.of_nat i) (Z.of_nat j)).
      * rewrite firstn_map, skipn_map, map_app. reflexivity.
      * assert (i = j) by lia. subst j. rewrite firstn_skipn. reflexivity.
    + rewrite reals_drop, F. f_equal. rewrite firstn_firstn. f_equal. lia.
Qed.
