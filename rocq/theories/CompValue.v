(** CompValue: every TOML value is read as the Python value it stands for (C38). *)
From Verif Require Import Base Source Utils Items Container Arrays Parser Api Lemmas Escape Strings StringRT StringApi Numbers Floats Dates Keys Reader Text Render TextValue TextParse Verbatim Consist OMap ContOps Wf Fuel FuelParse Mono ListSpec ArrayLemmas ItemInd PyVal PyItem ItemConv Unwrap DumpText DumpCont DumpValue DumpChain Grammar Meaning Denote Snug Lines CompStr CompNum CompDate CompKey Errors Ordinary.
From Coq Require Import ZifyBool ZifyNat ZifyN.
Open Scope nat_scope.

Definition sps (w : str) : Prop := Forall (fun c => c = 32%N) w.
(** Reading [w], followed by spaces and something else; a date keeps the spaces. *)
(** The item stands for [v], is written as [v], and brings the spaces [e] along. *)
Record got (it : item) (v : pyv) (e : str) : Prop := {
  got_value : value_item it; got_unwrap : unwrap it = Some v; got_text : denotes (item_string it) v; got_last : lastc (item_string it);
  got_cws : tr_cws (item_trivia it) = e; got_indent : tr_indent (item_trivia it) = []; got_comment : tr_comment (item_trivia it) = []; got_snug : snug it v; got_unmoved : unmoved it }.
Lemma value_plain it : value_item it -> plain it.
Proof. destruct it; cbn; auto. Qed.
Lemma got_plain it v e : got it v e -> plain it.
Proof. intros G. apply value_plain, G. Qed.
(** With strict reports [sf]: no date is followed by a space, no blank stands before a comma. *)
Definition calm (sf : bool) (s : str) : Prop := sf = true -> no_date_space s /\ no_blank_comma s.
Lemma calm_false s : calm false s. Proof. discriminate. Qed.
Lemma calm_app sf a b : calm sf (a ++ b) -> calm sf b.
Proof. intros H X. destruct (H X) as [A B]. split; [intros x d1 d2 y E; apply (A (a ++ x) d1 d2 y); rewrite E, <- app_assoc; reflexivity|intros x c y E; apply (B (a ++ x) c y); rewrite E, <- app_assoc; reflexivity]. Qed.
Lemma calm_date d b : calm true (iso_date d ++ 32%N :: b) -> False.
Proof.
  intros H. destruct (H eq_refl) as [A _]. unfold iso_date in A. destruct (dec_pad_digits 2 (d_day d)) as [F L]. destruct (dec_pad 2 (d_day d)) as [|d1 [|d2 [|]]]; try discriminate L.
  inversion F as [|? ? F1 F']; subst. inversion F' as [|? ? F2 _]; subst. apply (A (dec_pad 4 (d_year d) ++ [chMINUS] ++ dec_pad 2 (d_month d)) d1 d2 b); [|auto]. rewrite <- !app_assoc. reflexivity.
Qed.
Definition comes (w : str) (v : pyv) : Prop := forall sf sp t pre mk, sps sp -> date_tail t -> calm sf (w ++ sp ++ t) ->
  exists n it e s mk', sp = e ++ s /\ got it v e /\ (sf = true -> e = []) /\
    parse_value sf n (mkSt pre (w ++ sp ++ t) mk) = (Ok it, mkSt (pre ++ w ++ e) (s ++ t) mk').
Lemma sps_delim sp t : sps sp -> date_tail t -> delim_tail (sp ++ t).
Proof. intros H T. destruct sp as [|c sp]; [apply date_tail_delim, T|]. inversion H; subst. reflexivity. Qed.
Lemma delim_no_quote b tail : delim_tail tail -> no_quote (quote_of b) tail.
Proof. destruct tail as [|c r]; [auto|]. cbn. intros H ->. destruct b; discriminate. Qed.
Lemma scalar_got {sf} w v e n pre rest mk sv tr pre' rest' mk' : parse_value sf n (mkSt pre rest mk) = (Ok (IVal sv tr), mkSt pre' rest' mk') -> pre' = pre ++ w ++ e ->
  tr_cws tr = e \/ scalar_string sv = w -> unwrap (IVal sv tr) = Some v -> denotes w v -> got (IVal sv tr) v e.
Proof.
  intros H -> C U D. pose proof (scalar_read _ _ _ _ _ _ H) as (A & Vi & Ti & Tc & La). cbn [item_string item_trivia] in *.
  assert (E : scalar_string sv ++ tr_cws tr = w ++ e) by (eapply adds_inj; [exact A|reflexivity]).
  assert (W : scalar_string sv = w /\ tr_cws tr = e). { destruct C as [C|C]; rewrite C in E; [apply app_inv_tail in E; auto|apply app_inv_head in E; auto]. }
  destruct W as [W1 W2]. split; cbn [item_string item_trivia]; auto; [rewrite W1; exact D| |intros u; reflexivity]. apply (sg_other _ _ v); [exact I|cbn [item_string]; rewrite W1; exact D|exact U|apply pe_refl].
Qed.
Lemma comes_scalar w v : (exists sv tr, reads_as w (IVal sv tr) delim_tail /\ unwrap (IVal sv tr) = Some v /\ scalar_string sv = w) -> denotes w v -> comes w v.
Proof.
  intros (sv & tr & R & U & W) D sf sp t pre mk Hs Ht _. destruct (R sf (S (List.length w)) pre mk (sp ++ t)) as [mk' E]; [apply sps_delim; assumption|lia|].
  exists (S (List.length w)), (IVal sv tr), [], sp, mk'. split; [reflexivity|]. split; [|split; [reflexivity|rewrite app_nil_r; exact E]].
  eapply scalar_got; [exact E|rewrite app_nil_r; reflexivity|right; exact W|exact U|exact D].
Qed.
Lemma comes_string basic ml w m : string_means basic ml w m -> comes w (PStr m).
Proof.
  intros H sf sp t pre mk Hs Ht _. destruct (string_run basic ml w m H (List.length w) pre (List.length pre) (sp ++ t)) as (o & mk' & E); [lia|apply delim_no_quote, sps_delim; assumption|].
  assert (X : parse_value sf (S (List.length w)) (mkSt pre (w ++ sp ++ t) mk) = (Ok (str_item (SStr (styp basic ml) m o)), mkSt (pre ++ w) (sp ++ t) mk')).
  2: { exists (S (List.length w)), (str_item (SStr (styp basic ml) m o)), [], sp, mk'. split; [reflexivity|]. split; [|split; [reflexivity|rewrite app_nil_r; exact X]].
    eapply scalar_got; [exact X|rewrite app_nil_r; reflexivity|left; reflexivity|reflexivity|]. eapply dn_string, H. }
  assert (Q : exists r, w = quote_of basic :: r). { destruct H as (n & b & _ & _ & ->). destruct ml; cbn [app]; eauto. }
  destruct Q as [r Q]. cbn [parse_value]. unfold bind at 1, mark, set_mark. cbn [p_pre p_rest]. unfold bind at 1, current, cur. cbn [p_rest].
  replace (match w ++ sp ++ t with [] => chNUL | c :: _ => c end) with (quote_of basic) by (rewrite Q; reflexivity).
  destruct basic; cbn [quote_of].
  - change (34 =? chDQ)%N with true. cbv iota. unfold bind, restore_on_err. change SLB with (styp true false). rewrite E. reflexivity.
  - change (39 =? chDQ)%N with false. change (39 =? chSQ)%N with true. cbv iota. unfold bind, restore_on_err. change SLL with (styp false false). rewrite E. reflexivity.
Qed.
Lemma comes_bool (b : bool) : comes (if b then L "true" else L "false") (PBool b).
Proof.
  apply comes_scalar; [|destruct b; constructor]. exists (SBool b), default_trivia. split; [|split; [reflexivity|destruct b; reflexivity]]. intros strict n pre mk tail _ Hn. apply (reads_bool b strict n pre mk tail I Hn).
Qed.
Lemma comes_date w d : date_means w d -> comes w (PDate d).
Proof.
  intros H sf sp t pre mk Hs Ht Q. destruct (date_is w d H) as [-> Hr].
  destruct (date_space_run d [] (PDate d) Hr (or_introl (conj eq_refl eq_refl)) sp t Hs Ht) as (sv & tr & U & W & R). destruct (R sf 0 pre mk) as [mk' E]. rewrite app_nil_r in E, W.
  exists 1, (IVal sv tr), sp, [], mk'. rewrite app_nil_r. split; [reflexivity|]. split; [|split; [|exact E]]; [eapply scalar_got; [exact E|reflexivity|right; exact W|exact U|apply dn_date, H]|].
  intros ->. destruct sp as [|c sp]; [reflexivity|]. inversion Hs; subst. destruct (calm_date d _ Q).
Qed.
Lemma comes_datetime w d : datetime_means w d -> comes w (PDateTime d).
Proof.
  intros H0. assert (D : denotes w (PDateTime d)) by (apply dn_datetime, H0). destruct H0 as [dt t o d' t' o' x Hd Hx Ht Ho]. destruct (date_is dt d' Hd) as [-> Hr]. destruct Hx as [Hx|[Hx|Hx]].
  - apply comes_scalar; [|exact D]. eapply dt_T_reads; eauto.
  - apply comes_scalar; [|exact D]. eapply dt_T_reads; eauto.
  - subst x. intros sf sp tl pre mk Hs Htl Q. destruct (date_space_run d' ([32%N] ++ t ++ o) (PDateTime (mkDT d' t' o')) Hr) with (sp := sp) (tail := tl) as (sv & tr & U & W & R); auto.
    { right. exists t, o, t', o'. auto. }
    destruct (R sf 0 pre mk) as [mk' E]. exists 1, (IVal sv tr), sp, [], mk'. rewrite app_nil_r. split; [reflexivity|]. split; [|split; [|exact E]]; [eapply scalar_got; [exact E|reflexivity|right; exact W|exact U|exact D]|].
    intros ->. rewrite <- app_assoc in Q. destruct (calm_date d' _ Q).
Qed.
Lemma comes_start w v : comes w v -> exists c r, w = c :: r /\ vstart c = true.
Proof.
  intros H. destruct (H false [] [chLF] [] 0) as (n & it & e & s & mk' & E0 & _ & _ & E); [constructor|reflexivity|apply calm_false|]. cbn [app] in E.
  destruct (value_start _ _ _ _ _ E) as (c & r & E1 & E2). cbn [p_rest] in E1. destruct w as [|a w]; [cbn in E1; inversion E1; subst; discriminate|].
  inversion E1; subst. eauto.
Qed.

(** * Gaps *)
Lemma comment_run pre k c r mk : comment k -> newline_c c -> exists mk', parse_comment_trail false (mkSt pre (k ++ c :: r) mk) = (Ok ([], k, []), mkSt (pre ++ k) (c :: r) mk').
Proof.
  intros (u & -> & Hu) Hc. exists (List.length (pre ++ 35%N :: u)). unfold parse_comment_trail. unfold bind at 1, endM, at_end. cbn [p_rest app]. unfold bind at 1, mark, set_mark. cbn [p_pre p_rest].
  unfold bind at 1, adv_whileM at 1. rewrite adv_none by reflexivity. unfold bind at 1. cbn [p_rest]. unfold bind at 1, current at 1, cur. cbn [p_rest].
  change (false || (35 =? chLF)%N) with false. change (35 =? chHASH)%N with true. cbv iota. unfold bind at 1. unfold bind at 1, extractM at 1, extract. cbn [p_mark p_pre]. rewrite skipn_all.
  unfold bind at 1, mark, set_mark. cbn [p_pre p_rest]. unfold bind at 1. rewrite incM_st.
  unfold bind at 1, adv_whileM, adv_while. cbn [p_pre p_rest p_mark].
  destruct (take_while_app (fun c => negb (is_nl c) && negb (bad_comment_char c)) u (c :: r)) as [-> ->].
  { eapply Forall_impl; [|exact Hu]. intros x Hx. unfold control_c in Hx. unfold is_nl, bad_comment_char, chLF, chCR, chTAB. lia. }
  { destruct Hc as [->| ->]; reflexivity. }
  unfold bind at 1. cbn [p_rest]. unfold bind at 1, current, cur. cbn [p_rest].
  assert (En : is_nl c = true) by (destruct Hc as [->| ->]; reflexivity). rewrite En. cbn [orb]. unfold bind at 1, ret at 1. unfold bind at 1, extractM, extract. cbn [p_mark p_pre].
  rewrite <- app_assoc. cbn [app]. rewrite skipn_length_app. reflexivity.
Qed.
Lemma vals_ws elems x : vals (elems ++ [EWs x]) = vals elems.
Proof. unfold vals. rewrite flat_map_app. cbn. apply app_nil_r. Qed.
Lemma vals_comment elems x : vals (elems ++ [EComment x]) = vals elems.
Proof. unfold vals. rewrite flat_map_app. cbn. apply app_nil_r. Qed.
Lemma vals_val elems x : vals (elems ++ [EVal x]) = vals elems ++ [x].
Proof. unfold vals. rewrite flat_map_app. cbn. reflexivity. Qed.
Lemma adv_ws w c r pre mk : Forall space_c w -> is_ws c = false -> adv_while is_ws (mkSt pre (w ++ c :: r) mk) = mkSt (pre ++ w) (c :: r) mk.
Proof.
  intros Hw Hc. unfold adv_while. cbn [p_pre p_rest p_mark]. destruct (take_while_app is_ws w (c :: r)) as [-> ->]; [|exact Hc|reflexivity].
  eapply Forall_impl; [|exact Hw]. intros x. apply space_ws.
Qed.
Lemma array_ws {sf} w c r pre mk : Forall space_c w -> w <> [] -> is_ws c = false -> c <> chHASH -> forall k elems prev,
  array_loop sf (S k) elems prev (mkSt pre (w ++ c :: r) mk) = array_loop sf k (elems ++ [EWs w]) prev (mkSt (pre ++ w) (c :: r) mk).
Proof.
  intros Hw Hn Hc Hh k elems prev. cbn [array_loop]. unfold bind at 1, idxM, idx. cbn [p_pre]. unfold bind at 1, adv_whileM. rewrite adv_ws by assumption.
  unfold bind at 1. rewrite idx_since. unfold bind at 1, current at 1, cur at 1. cbn [p_rest]. destruct (existsb is_nl w); [reflexivity|]. apply N.eqb_neq in Hh. rewrite Hh.
  destruct w; [congruence|]. reflexivity.
Qed.
(** What was read can be written: the groups take each element in turn, and a comment
    is followed by a line break. *)
Definition unbroken (elems : list aelem) (rest : str) : Prop :=
  fitsall elems empty_group /\ (g_comment (glast elems empty_group) <> None -> exists c x, rest = c :: x /\ is_nl c = true).
Definition more (elems elems' : list aelem) (w rest : str) : Prop :=
  unbroken elems' rest /\ flat_map elem_text elems' = flat_map elem_text elems ++ w /\ (g_comma (glast elems empty_group) = None -> g_comma (glast elems' empty_group) = None).
Lemma more_refl elems rest : unbroken elems rest -> more elems elems [] rest.
Proof. intros H. split; [exact H|]. rewrite app_nil_r. auto. Qed.
Lemma more_trans a b c w u r r' : more a b w r -> more b c u r' -> more a c (w ++ u) r'.
Proof. intros (_ & A & B) (X & Y & Z). split; [exact X|]. split; [rewrite Y, A, app_assoc; reflexivity|auto]. Qed.
Lemma more_ws elems w rest rest' : unbroken elems rest -> Forall space_c w -> more elems (elems ++ [EWs w]) w rest'.
Proof.
  intros (A & B) Hw. assert (Hc : inb chCOMMA w = false). { destruct (inb _ _) eqn:E; [|reflexivity]. apply inb_In in E. rewrite Forall_forall in Hw. apply Hw, space_ws in E. discriminate. }
  unfold more, unbroken. rewrite glast_app. cbn [gstep]. rewrite Hc. cbn [g_comment g_comma]. split; [split; [|congruence]|split; [|reflexivity]].
  - apply fitsall_app. split; [exact A|]. cbn [fits]. rewrite Hc. discriminate.
  - rewrite flat_map_app. cbn. rewrite app_nil_r. reflexivity.
Qed.
Lemma more_comment elems w u rest c r : unbroken elems rest -> (forall a x, rest = a :: x -> is_nl a = false) -> newline_c c -> more elems (elems ++ [EComment (mkTrivia w [] u [])]) (w ++ u) (c :: r).
Proof.
  intros (A & B) Hr Hc. assert (N : g_comment (glast elems empty_group) = None). { destruct (g_comment _); [|reflexivity]. destruct (B ltac:(discriminate)) as (a & x & -> & Ha). rewrite (Hr a x eq_refl) in Ha. discriminate. }
  unfold more, unbroken. rewrite glast_app. cbn [gstep g_comma g_comment]. split; [split|split; [|auto]].
  - apply fitsall_app. split; [exact A|exact N].
  - intros _. exists c, r. split; [reflexivity|]. destruct Hc as [->| ->]; reflexivity.
  - rewrite flat_map_app. cbn. unfold comment_string. cbn. rewrite !app_nil_r. reflexivity.
Qed.
Lemma more_value elems it rest rest' : unbroken elems rest -> unbroken (elems ++ [EVal it]) rest' /\ g_comma (glast (elems ++ [EVal it]) empty_group) = None.
Proof.
  intros (A & B). pose proof (glast_gwf elems) as W. unfold unbroken. rewrite glast_app. cbn [gstep]. assert (X : forall g : agroup item, gwf g -> g_comma (gstep g (EVal it)) = None /\ g_comment (gstep g (EVal it)) = None).
  { intros g Wg. cbn [gstep]. destruct (g_value g) eqn:E; cbn [g_comma g_comment]; [auto|]. apply Wg, E. }
  destruct (X _ W) as [X1 X2]. cbn [gstep] in X1, X2. rewrite X1, X2. split; [split; [apply fitsall_app; split; [exact A|exact I]|congruence]|reflexivity].
Qed.
Lemma more_comma elems r rest' : unbroken elems (44%N :: r) -> g_comma (glast elems empty_group) = None -> unbroken (elems ++ [EWs [chCOMMA]]) rest'.
Proof.
  intros (A & B) C. assert (N : g_comment (glast elems empty_group) = None). { destruct (g_comment _); [|reflexivity]. destruct (B ltac:(discriminate)) as (a & x & E & Ha). inversion E; subst. discriminate. }
  unfold unbroken. rewrite glast_app. cbn [gstep]. change (inb chCOMMA [chCOMMA]) with true. cbn [g_comment]. rewrite N. split; [|congruence]. apply fitsall_app. split; [exact A|]. intros _. auto.
Qed.
(** Other values in the same places. *)
Fixpoint replug (es : list aelem) (xs : list item) : list aelem :=
  match es, xs with
  | EVal _ :: es, x :: xs => EVal x :: replug es xs
  | e :: es, _ => e :: replug es xs
  | [], _ => []
  end.
Lemma replug_gap a : vals a = [] -> forall b xs, replug (a ++ b) xs = a ++ replug b xs.
Proof. induction a as [|[s|t|i] a IH]; intros V b xs; [reflexivity|cbn [app replug]; f_equal; apply IH, V..|discriminate V]. Qed.
Lemma replug_same es : replug es (vals es) = es.
Proof. induction es as [|[s|t|i] es IH]; [reflexivity|cbn; f_equal; exact IH..]. Qed.
Definition alike (g g' : agroup item) : Prop := g_comma g = g_comma g' /\ g_comment g = g_comment g' /\ (g_value g = None <-> g_value g' = None).
Lemma alike_step g g' e e' : alike g g' -> (e = e' \/ exists i i', e = EVal i /\ e' = EVal i') -> alike (gstep g e) (gstep g' e').
Proof.
  intros (A & B & C) [<-|(i & i' & -> & ->)].
  - destruct e as [s|t|i]; cbn [gstep].
    + destruct (inb chCOMMA s); repeat split; cbn; congruence.
    + repeat split; cbn; congruence.
    + destruct (g_value g), (g_value g'); repeat split; cbn; try congruence; destruct C as [C1 C2]; specialize (C1 eq_refl) || specialize (C2 eq_refl); discriminate.
  - cbn [gstep]. destruct (g_value g), (g_value g'); repeat split; cbn; try congruence; destruct C as [C1 C2]; specialize (C1 eq_refl) || specialize (C2 eq_refl); discriminate.
Qed.
Lemma replug_fits es : forall g g' xs, alike g g' -> fitsall es g -> fitsall (replug es xs) g'.
Proof.
  induction es as [|e es IH]; intros g g' xs A F; [destruct xs; exact I|]. destruct F as [F1 F2]. pose proof A as (A1 & A2 & _). destruct e as [s|t|i]; cbn [replug].
  - split; [cbn [fits] in *; rewrite <- A1, <- A2; exact F1|]. eapply IH; [apply alike_step; [exact A|left; reflexivity]|exact F2].
  - split; [cbn [fits] in *; rewrite <- A2; exact F1|]. eapply IH; [apply alike_step; [exact A|left; reflexivity]|exact F2].
  - destruct xs as [|x xs]; (split; [exact I|]); (eapply IH; [|exact F2]; apply alike_step; [exact A|right; eauto]).
Qed.
Lemma plug_loop es : forall this xs, elems_real es -> Forall real xs -> List.length xs = List.length (vals es) ->
  (g_real this = None -> plug (group_loop es this) xs = group_loop (replug es xs) this) /\
  (forall v y, g_real this = Some v -> real y -> plug (group_loop es this) (y :: xs) = group_loop (replug es xs) (set_gvalue (Some y) this)).
Proof.
  assert (Rn : forall this : agroup item, g_real this = None -> forall c m, g_real (mkGroup (g_indent this) (Some (match g_value this with Some v => v | None => INull end)) c m) = None).
  { intros this G c m. unfold g_real in *. cbn [g_value]. destruct (g_value this); [exact G|reflexivity]. }
  assert (Rs : forall (this : agroup item) v, g_real this = Some v -> g_value this = Some v /\ is_null v = false).
  { intros this v G. unfold g_real in G. destruct (g_value this) as [x|]; [|discriminate]. destruct (is_null x) eqn:N; [discriminate|]. injection G as ->. auto. }
  induction es as [|e es IH]; intros this xs R F L.
  - destruct xs; [|discriminate]. split; [intros G; cbn; rewrite G; reflexivity|intros v y G _; cbn; rewrite G; reflexivity].
  - destruct e as [s|t|i]; cbn [group_loop replug].
    + change (vals (EWs s :: es)) with (vals es) in L. destruct (inb chCOMMA s) eqn:Ic.
      * split; [intros G|intros v y G Ry]; cbn [group_loop]; rewrite ?Ic.
        -- apply IH; auto.
        -- destruct (Rs _ _ G) as [Gv Nv]. destruct (IH (mkGroup (g_indent this) (Some (match g_value this with Some v => v | None => INull end)) (Some s) (g_comment this)) xs R F L) as [_ X].
           rewrite (X v y); [reflexivity| |exact Ry]. unfold g_real. cbn [g_value]. rewrite Gv, Nv. reflexivity.
      * split; [intros G|intros v y G Ry]; cbn [group_loop]; rewrite ?Ic; cbn [plug]; rewrite G; f_equal; apply IH; auto.
    + change (vals (EComment t :: es)) with (vals es) in L. split; [intros G|intros v y G Ry]; cbn [group_loop].
      * apply IH; auto.
      * destruct (Rs _ _ G) as [Gv Nv]. destruct (IH (mkGroup (g_indent this) (Some (match g_value this with Some v => v | None => INull end)) (g_comma this) (Some t)) xs R F L) as [_ X].
        rewrite (X v y); [reflexivity| |exact Ry]. unfold g_real. cbn [g_value]. rewrite Gv, Nv. reflexivity.
    + change (vals (EVal i :: es)) with (i :: vals es) in L. unfold elems_real in R. change (vals (EVal i :: es)) with (i :: vals es) in R. inversion R as [|? ? Ri R']; subst. destruct xs as [|x xs]; [discriminate|]. injection L as L. inversion F as [|? ? Rx F']; subst.
      assert (Gi : forall a c m, g_real (mkGroup a (Some i) c m) = Some i) by (intros; unfold g_real; cbn [g_value]; rewrite (real_null _ Ri); reflexivity).
      split; [intros G|intros v y G Ry]; cbn [group_loop].
      * destruct (g_value this) as [z|] eqn:Ev.
        -- cbn [plug]. rewrite G. f_equal. destruct (IH (mkGroup None (Some i) None None) xs R' F' L) as [_ X]. rewrite (X i x (Gi _ _ _) Rx). reflexivity.
        -- destruct (IH (mkGroup (g_indent this) (Some i) (g_comma this) (g_comment this)) xs R' F' L) as [_ X]. rewrite (X i x (Gi _ _ _) Rx). reflexivity.
      * destruct (Rs _ _ G) as [Gv Nv]. rewrite Gv. cbn [set_gvalue g_value plug]. rewrite G. f_equal. destruct (IH (mkGroup None (Some i) None None) xs R' F' L) as [_ X]. rewrite (X i x (Gi _ _ _) Rx). reflexivity.
Qed.
Lemma plug_filter gs : forall xs, plug (filter g_bool gs) xs = filter g_bool (plug gs xs).
Proof.
  induction gs as [|g gs IH]; intros xs; [reflexivity|]. cbn [filter plug]. destruct (g_real g) as [v|] eqn:G.
  - assert (B : g_bool g = true) by (apply greal_bool; unfold greal; rewrite G; discriminate). rewrite B. cbn [plug]. rewrite G. destruct xs as [|x xs]; cbn [filter]; [rewrite B, IH; reflexivity|]. replace (g_bool (set_gvalue (Some x) g)) with true by (destruct g as [[?|] ? ? ?]; reflexivity). rewrite IH. reflexivity.
  - destruct (g_bool g) eqn:B; cbn [plug filter]; rewrite ?G, B, IH; destruct xs; reflexivity.
Qed.
Lemma plug_values es xs : elems_real es -> Forall real xs -> List.length xs = List.length (vals es) -> plug (group_values es) xs = group_values (replug es xs).
Proof. intros R F L. unfold group_values. rewrite plug_filter. f_equal. apply plug_loop; auto. Qed.
Definition grown (elems elems' : list aelem) : Prop := exists es, elems' = elems ++ es /\ vals es = [].
Lemma grown_refl a : grown a a. Proof. exists []. rewrite app_nil_r. auto. Qed.
Lemma vals_app a b : vals (a ++ b) = vals a ++ vals b. Proof. apply flat_map_app. Qed.
Lemma grown_trans a b c : grown a b -> grown b c -> grown a c.
Proof. intros (x & -> & X) (y & -> & Y). exists (x ++ y). rewrite vals_app, X, Y, app_assoc. auto. Qed.
Lemma grown_ws a w : grown a (a ++ [EWs w]). Proof. exists [EWs w]. auto. Qed.
Lemma grown_comment a w : grown a (a ++ [EComment w]). Proof. exists [EComment w]. auto. Qed.
(** White space, then a comment. *)
Lemma array_cm sf w u c r pre mk : Forall space_c w -> comment u -> newline_c c -> forall elems,
  unbroken elems (w ++ u ++ c :: r) -> exists m elems' mk', grown elems elems' /\ more elems elems' (w ++ u) (c :: r) /\ forall k prev,
  array_loop sf (m + k) elems prev (mkSt pre (w ++ u ++ c :: r) mk) = array_loop sf k elems' prev (mkSt (pre ++ w ++ u) (c :: r) mk').
Proof.
  intros Hw Hu Hc elems Ub. pose proof Hu as (u' & Eu & _).
  destruct (existsb is_nl w) eqn:En.
  - destruct (comment_run (pre ++ w) u c r mk Hu Hc) as [mk' E]. exists 2, ((elems ++ [EWs w]) ++ [EComment (mkTrivia [] [] u [])]), mk'.
    split; [eapply grown_trans; [apply grown_ws|apply grown_comment]|].
    split. { eapply more_trans; [apply (more_ws elems w _ (u ++ c :: r) Ub Hw)|]. apply (more_comment (elems ++ [EWs w]) [] u (u ++ c :: r)); [apply (more_ws elems w _ (u ++ c :: r) Ub Hw)| |exact Hc]. intros a x Ex. rewrite Eu in Ex. inversion Ex; reflexivity. }
    intros k prev. change (2 + k) with (S (S k)).
    cbn [array_loop]. unfold bind at 1, idxM, idx. cbn [p_pre]. unfold bind at 1, adv_whileM at 1. rewrite Eu at 1. cbn [app]. rewrite adv_ws by (auto; reflexivity).
    unfold bind at 1. rewrite idx_since. unfold bind at 1, current at 1, cur at 1. cbn [p_rest]. rewrite En.
    unfold bind at 1, idxM, idx. cbn [p_pre]. unfold bind at 1, adv_whileM. rewrite adv_none by reflexivity.
    unfold bind at 1, since. cbn [p_pre]. rewrite skipn_all. unfold bind at 1, current at 1, cur at 1. cbn [p_rest existsb]. change (35 =? chHASH)%N with true. cbv iota.
    unfold bind at 1. replace (35%N :: u' ++ c :: r) with (u ++ c :: r) by (rewrite Eu; reflexivity). rewrite E. rewrite (app_assoc pre w u). reflexivity.
  - destruct (comment_run (pre ++ w) u c r mk Hu Hc) as [mk' E]. exists 1, (elems ++ [EComment (mkTrivia w [] u [])]), mk'.
    split; [apply grown_comment|].
    split. { apply (more_comment elems w u (w ++ u ++ c :: r)); [exact Ub| |exact Hc]. intros a x Ex. destruct w as [|y w]; [rewrite Eu in Ex; inversion Ex; reflexivity|]. inversion Ex; subst. cbn [existsb] in En. apply orb_false_iff in En as [En _]. exact En. }
    intros k prev. change (1 + k) with (S k).
    cbn [array_loop]. unfold bind at 1, idxM, idx. cbn [p_pre]. unfold bind at 1, adv_whileM at 1. rewrite Eu at 1. cbn [app]. rewrite adv_ws by (auto; reflexivity).
    unfold bind at 1. rewrite idx_since. unfold bind at 1, current at 1, cur at 1. cbn [p_rest]. rewrite En. change (35 =? chHASH)%N with true. cbv iota.
    unfold bind at 1. replace (35%N :: u' ++ c :: r) with (u ++ c :: r) by (rewrite Eu; reflexivity). rewrite E. rewrite (app_assoc pre w u). reflexivity.
Qed.
Lemma gap_run sf g : gap g -> forall c y pre mk elems, is_ws c = false -> c <> chHASH -> unbroken elems (g ++ c :: y) ->
  exists m elems' mk', grown elems elems' /\ more elems elems' g (c :: y) /\ forall k prev,
  array_loop sf (m + k) elems prev (mkSt pre (g ++ c :: y) mk) = array_loop sf k elems' prev (mkSt (pre ++ g) (c :: y) mk').
Proof.
  induction 1 as [w Hw|w u c0 r Hw Hu Hc0 Hg IH]; intros c y pre mk elems Hc Hh Ub.
  - destruct w as [|x w].
    + exists 0, elems, mk. split; [apply grown_refl|]. split; [apply more_refl, Ub|]. intros k prev. rewrite app_nil_r. reflexivity.
    + exists 1, (elems ++ [EWs (x :: w)]), mk. split; [apply grown_ws|]. split; [eapply more_ws; eassumption|]. intros k prev. apply array_ws; auto. discriminate.
  - destruct (array_cm sf w u c0 (r ++ c :: y) pre mk Hw Hu Hc0 elems) as (m1 & e1 & mk1 & V1 & M1 & R1). { rewrite <- !app_assoc in Ub. exact Ub. }
    destruct (IH c y (pre ++ w ++ u) mk1 e1 Hc Hh) as (m2 & e2 & mk2 & V2 & M2 & R2); [apply M1|]. exists (m1 + m2), e2, mk2. split; [eapply grown_trans; eassumption|].
    split; [replace (w ++ u ++ c0 :: r) with ((w ++ u) ++ c0 :: r) by (rewrite <- app_assoc; reflexivity); eapply more_trans; eassumption|]. intros k prev.
    rewrite <- !app_assoc, <- (Nat.add_assoc m1 m2 k). cbn [app] in *. rewrite R1, R2. rewrite <- !app_assoc. reflexivity.
Qed.
Lemma gap_drop e g : sps e -> gap (e ++ g) -> gap g.
Proof.
  intros He. revert g. induction He as [|c e -> He IH]; intros g H; [exact H|]. apply IH. cbn [app] in H. clear -H. inversion H as [w Hw E|w u c r Hw Hu Hc Hg E]; subst.
  - inversion Hw; subst. apply gap_ws. assumption.
  - destruct w as [|x w].
    + destruct Hu as (t & -> & _). discriminate.
    + cbn [app] in E. inversion E; subst. inversion Hw; subst. apply gap_comment; assumption.
Qed.
Lemma gap_head c r : gap (c :: r) -> is_ws c = true \/ c = 35%N.
Proof.
  intros H. inversion H as [w Hw E|w u d t Hw Hu Hc Hg E]; subst.
  - inversion Hw; subst. left. apply space_ws. assumption.
  - destruct w as [|x w]; [destruct Hu as (t' & -> & _); inversion E; auto|]. inversion E; subst. inversion Hw; subst. left. apply space_ws. assumption.
Qed.
Lemma split_sps w : exists sp t, w = sp ++ t /\ sps sp /\ (forall r, t <> 32%N :: r).
Proof.
  induction w as [|c w (sp & t & -> & Hs & Ht)]; [exists [], []; repeat split; [constructor|discriminate]|].
  destruct (N.eq_dec c 32) as [->|Hc]; [exists (32%N :: sp), t; repeat split; [constructor; auto|exact Ht]|].
  exists [], (c :: sp ++ t). repeat split; [constructor|]. intros r X. inversion X. congruence.
Qed.
Lemma date_stop_ws c : is_ws c = true \/ c = 35%N \/ c = 44%N \/ c = 93%N \/ c = 125%N -> c <> 32%N -> is_date_stop c = true.
Proof. unfold is_ws, is_spaces, is_nl, is_date_stop, is_val_delim, chSP, chTAB, chLF, chCR, chHASH, chCOMMA, chRBR, chRCB. cbn [inb existsb]. lia. Qed.
Lemma gap_split g t : gap g -> (forall r, t <> 32%N :: r) -> date_tail t -> t <> [] -> exists sp u, g ++ t = sp ++ u /\ sps sp /\ date_tail u /\ exists g', g = sp ++ g' /\ u = g' ++ t /\ gap g'.
Proof.
  intros Hg Ht Hd Hn. destruct (split_sps g) as (sp & g' & -> & Hs & Hh). exists sp, (g' ++ t). rewrite <- app_assoc. split; [reflexivity|]. split; [exact Hs|]. split.
  - destruct g' as [|c g']; [exact Hd|]. apply gap_drop in Hg; [|exact Hs]. cbn. apply date_stop_ws; [destruct (gap_head _ _ Hg); auto|]. intros ->. eapply Hh. reflexivity.
  - exists g'. split; [reflexivity|]. split; [reflexivity|]. eapply gap_drop; eauto.
Qed.
(** * Elements *)
Definition is_val (v : pyv) (it : item) : Prop := plain it /\ unwrap it = Some v /\ snug it v.
Definition means (it : item) (v : pyv) : Prop := denotes (item_string it) v.
Definition fills (after : bool) (w : str) (l : list pyv) : Prop := forall e r, w = e ++ r -> sps e -> (after = true \/ e = []) ->
  forall sf elems prev pre mk tail, calm sf (r ++ 93%N :: tail) -> (after = true <-> prev = Some true) -> unbroken elems (r ++ 93%N :: tail) -> (after = true -> g_comma (glast elems empty_group) = None) ->
  exists m es mk', Forall2 is_val l (vals es) /\ fitsall (elems ++ es) empty_group /\ (forall xs ys, List.length xs = List.length l -> Forall2 means xs ys -> elements after (flat_map elem_text (replug es xs)) ys) /\
    array_loop sf m elems prev (mkSt pre (r ++ 93%N :: tail) mk) = (Ok (IArray (group_values (elems ++ es)) default_trivia false), mkSt (pre ++ r ++ [93%N]) tail mk').
Lemma more_text elems es w rest : more elems (elems ++ es) w rest -> flat_map elem_text es = w.
Proof. intros (_ & M & _). rewrite flat_map_app in M. apply app_inv_head in M. exact M. Qed.
Lemma array_shut sf n elems prev pre r mk :
  exists mk', array_loop sf (S (S n)) elems prev (mkSt pre (chRBR :: r) mk) = (Ok (IArray (group_values elems) default_trivia false), mkSt (pre ++ [chRBR]) r mk').
Proof.
  destruct prev as [[|]|]; [exists mk; apply array_close| |]; exists (List.length pre).
  all: rewrite array_at; [|reflexivity|discriminate]; cbv zeta beta iota.
  all: assert (P : parse_value sf (S n) (mkSt pre (chRBR :: r) mk) = (Err (parse_error (KUnexpectedChar chRBR) (mkSt pre (chRBR :: r) (List.length pre))), mkSt pre (chRBR :: r) (List.length pre))) by reflexivity.
  all: rewrite P; unfold parse_error; destruct (to_linecol _ _); unfold idx at 1 2; cbn [p_pre]; rewrite Nat.eqb_refl, andb_false_r; cbn [andb negb]; unfold bind at 1, current, cur; cbn [p_rest]; change (chRBR =? chRBR)%N with true; cbv iota.
  all: unfold bind, incM, inc; cbn [p_rest p_pre p_mark]; destruct r; reflexivity.
Qed.
Lemma fills_end after g : gap g -> fills after g [].
Proof.
  intros Hg e r -> He _ sf elems prev pre mk tail _ _ Ub _. apply gap_drop in Hg; [|exact He].
  destruct (gap_run sf r Hg 93%N tail pre mk elems) as (m & elems' & mk1 & (es & -> & V) & M & R); [reflexivity|discriminate|exact Ub|].
  destruct (array_shut sf 0 (elems ++ es) prev (pre ++ r) tail mk1) as [mk2 E]. exists (m + 2), es, mk2. split; [rewrite V; constructor|].
  split; [apply M|]. split; [|rewrite R; change 93%N with chRBR; rewrite E, <- app_assoc; reflexivity].
  intros xs ys L D. destruct xs; [|discriminate]. inversion D; subst. rewrite <- (app_nil_r es), (replug_gap es V [] []). cbn [replug]. rewrite app_nil_r, (more_text _ _ _ _ M). constructor. exact Hg.
Qed.
Lemma sps_prefix e r g x y : sps e -> x <> 32%N -> e ++ r = g ++ x :: y -> exists g', g = e ++ g' /\ r = g' ++ x :: y.
Proof.
  intros He Hx. revert g. induction He as [|c e -> He IH]; intros g E; [exists g; auto|]. destruct g as [|d g]; cbn [app] in E; [inversion E; congruence|]. inversion E; subst.
  destruct (IH g H1) as (g' & -> & ->). exists g'. auto.
Qed.
Lemma fills_comma g r l : gap g -> fills false r l -> fills true (g ++ [44%N] ++ r) l.
Proof.
  intros Hg IH e r0 E He _ sf elems prev pre mk tail Q Hp Ub Cm. assert (Ep : prev = Some true) by (apply Hp; reflexivity). subst prev.
  symmetry in E. destruct (sps_prefix e r0 g 44 r He ltac:(discriminate) E) as (g' & -> & ->). apply gap_drop in Hg; [|exact He].
  destruct (gap_run sf g' Hg 44%N (r ++ 93%N :: tail) pre mk elems) as (m & e1 & mk1 & (es & -> & V) & M & R); [reflexivity|discriminate|rewrite <- app_assoc in Ub; exact Ub|]. pose proof M as (M1 & M2 & M3).
  destruct (IH [] r eq_refl ltac:(constructor) (or_intror eq_refl) sf ((elems ++ es) ++ [EWs [chCOMMA]]) (Some false) ((pre ++ g') ++ [44%N]) mk1 tail) as (m2 & e2 & mk2 & F & Fi & Em & R2).
  { rewrite <- app_assoc in Q. apply calm_app in Q. exact (calm_app sf [44%N] _ Q). } { split; discriminate. } { eapply more_comma; [exact M1|apply M3, Cm; reflexivity]. } { discriminate. }
  assert (Ea : ((elems ++ es) ++ [EWs [chCOMMA]]) ++ e2 = elems ++ es ++ [EWs [chCOMMA]] ++ e2) by (rewrite <- !app_assoc; reflexivity). rewrite Ea in Fi, R2. clear Ea.
  exists (m + S m2), (es ++ [EWs [chCOMMA]] ++ e2), mk2. split; [rewrite vals_app, V; exact F|]. split; [exact Fi|].
  split. { intros xs ys L D. rewrite (replug_gap es V). change (replug ([EWs [chCOMMA]] ++ e2) xs) with ([EWs [chCOMMA]] ++ replug e2 xs). rewrite !flat_map_app, (more_text _ _ _ _ M). cbn [flat_map elem_text]. rewrite app_nil_r. apply em_comma; [exact Hg|apply Em; assumption]. }
  rewrite <- app_assoc. cbn [app]. rewrite R.
  assert (Ex : exists c y, r ++ 93%N :: tail = c :: y) by (destruct r; cbn [app]; eauto). destruct Ex as (c & y & Ex). rewrite Ex in *.
  change 44%N with chCOMMA in *. rewrite array_comma, R2. rewrite <- !app_assoc. reflexivity.
Qed.
Lemma elements_after r l : elements true r l -> exists sp u, r = sp ++ u /\ sps sp /\ forall tail, date_tail (u ++ 93%N :: tail).
Proof.
  intros H. inversion H as [after g Hg E1 E2 E3| |g r0 l0 Hg Hr E1 E2 E3]; subst.
  - destruct (gap_split r [93%N] Hg) as (sp & u & E & Hs & Hd & g' & -> & -> & Hg'); [discriminate|reflexivity|discriminate|]. exists sp, g'. repeat split; auto.
    intros tail. destruct g'; [reflexivity|exact Hd].
  - destruct (gap_split g [44%N] Hg) as (sp & u & E & Hs & Hd & g' & -> & -> & Hg'); [discriminate|reflexivity|discriminate|]. exists sp, (g' ++ [44%N] ++ r0). rewrite <- app_assoc. repeat split; auto.
    intros tail. destruct g'; [reflexivity|exact Hd].
Qed.
Lemma fills_value g w v r l : gap g -> comes w v -> elements true r l -> fills true r l -> fills false (g ++ w ++ r) (v :: l).
Proof.
  intros Hg Hw Hr IH e r0 E _ [X| ->]; [discriminate|]. cbn [app] in E. subst r0. intros sf elems prev pre mk tail Q Hp Ub _.
  destruct (comes_start w v Hw) as (c & w' & Ew & Vs). destruct (vstart_facts c Vs) as (C1 & _ & _ & C2).
  destruct (gap_run sf g Hg c (w' ++ r ++ 93%N :: tail) pre mk elems C1 C2) as (m & e1 & mk1 & (es & -> & V) & M & R). { rewrite Ew in Ub. cbn [app] in Ub. rewrite <- !app_assoc in Ub. cbn [app] in Ub. rewrite <- ?app_assoc in Ub. exact Ub. }
  pose proof M as (M1 & M2 & _).
  destruct (elements_after r l Hr) as (sp & u & -> & Hsp & Hu).
  rewrite <- !app_assoc in Q. apply calm_app in Q. pose proof Q as Q2. apply calm_app in Q2.
  destruct (Hw sf sp (u ++ 93%N :: tail) (pre ++ g) mk1 Hsp (Hu tail) Q) as (n & it & a & s & mk2 & -> & G & Ea & Rv). pose proof (got_plain _ _ _ G) as P. pose proof (got_unwrap _ _ _ G) as U.
  destruct (IH a (s ++ u)) with (sf := sf) (elems := (elems ++ es) ++ [EVal it]) (prev := Some true) (pre := (pre ++ g) ++ w ++ a) (mk := mk2) (tail := tail) as (m2 & e2 & mk3 & F & Fi & Em & R2).
  { rewrite <- app_assoc. reflexivity. } { apply Forall_app in Hsp. apply Hsp. } { left. reflexivity. } { rewrite <- !app_assoc in *. apply calm_app in Q2. exact Q2. } { tauto. } { eapply more_value, M1. } { intros _. eapply (more_value (elems ++ es) it _ []), M1. }
  assert (Eq : ((elems ++ es) ++ [EVal it]) ++ e2 = elems ++ es ++ [EVal it] ++ e2) by (rewrite <- !app_assoc; reflexivity). rewrite Eq in Fi, R2. clear Eq.
  exists (m + S (n + m2)), (es ++ [EVal it] ++ e2), mk3. split; [rewrite vals_app, V; constructor; [split; [assumption|split; [assumption|apply G]]|exact F]|]. split; [exact Fi|].
  split. { intros xs ys L D. destruct xs as [|x xs]; [discriminate|]. injection L as L. inversion D as [|? y ? ys' Dx D']; subst. rewrite (replug_gap es V). change (replug ([EVal it] ++ e2) (x :: xs)) with ([EVal x] ++ replug e2 xs). rewrite !flat_map_app, (more_text _ _ _ _ M). cbn [flat_map elem_text]. rewrite app_nil_r. apply em_value; [exact Hg|exact Dx|apply Em; assumption]. } assert (Ec : sf && nonempty (tr_cws (item_trivia it)) = false) by (rewrite (got_cws _ _ _ G); destruct sf; [rewrite Ea; reflexivity|reflexivity]). clear G.
  replace ((g ++ w ++ (a ++ s) ++ u) ++ 93%N :: tail) with (g ++ c :: w' ++ ((a ++ s) ++ u) ++ 93%N :: tail) by (rewrite Ew, <- !app_assoc; reflexivity).
  rewrite R. rewrite array_at by assumption. cbv zeta.
  replace (c :: w' ++ ((a ++ s) ++ u) ++ 93%N :: tail) with (w ++ (a ++ s) ++ u ++ 93%N :: tail) by (rewrite Ew, <- !app_assoc; reflexivity).
  assert (Np : prev <> Some true) by (intros Y; apply Hp in Y; discriminate).
  apply (value_up n (n + m2)) in Rv; [|lia]. rewrite <- (app_assoc s u) in R2. apply (array_up m2 (n + m2)) in R2; [|lia].
  assert (G : forall prv, prv <> Some true -> (match prv with Some true => (c <- current ;; if (match prv with Some true => (c =? chCOMMA)%N | _ => false end) then inc_exn KUnexpectedEof ;;; array_loop sf (n + m2) ((elems ++ es) ++ [EWs [chCOMMA]]) (Some false) else if (c =? chRBR)%N then incM ;;; ret (IArray (group_values (elems ++ es)) default_trivia false) else raise (KUnexpectedChar c))
     | _ => fun st => match parse_value sf (n + m2) st with (Ok v, st') => if sf && nonempty (tr_cws (item_trivia v)) then (Err (LossyE 2), st') else array_loop sf (n + m2) ((elems ++ es) ++ [EVal v]) (Some true) st' | (Err (ParseErr (KUnexpectedChar _) _ _), st') => if sf && negb (Nat.eqb (idx st') (idx st)) && (cur st' =? chRBR)%N then (Err (LossyE 4), st') else (c <- current ;; if (match prv with Some true => (c =? chCOMMA)%N | _ => false end) then inc_exn KUnexpectedEof ;;; array_loop sf (n + m2) ((elems ++ es) ++ [EWs [chCOMMA]]) (Some false) else if (c =? chRBR)%N then incM ;;; ret (IArray (group_values (elems ++ es)) default_trivia false) else raise (KUnexpectedChar c)) st' | (Err e, st') => (Err e, st') end end) (mkSt (pre ++ g) (w ++ (a ++ s) ++ u ++ 93%N :: tail) mk1)
     = (Ok (IArray (group_values (elems ++ es ++ [EVal it] ++ e2)) default_trivia false), mkSt (pre ++ (g ++ w ++ (a ++ s) ++ u) ++ [93%N]) tail mk3)).
  { intros prv Hprv. destruct prv as [[|]|]; [congruence| |]; rewrite Rv, Ec, R2; rewrite <- !app_assoc; reflexivity. }
  apply G, Np.
Qed.
Lemma is_vals l its : Forall2 is_val l its -> seqopt (map unwrap its) = Some l.
Proof. induction 1 as [|v it l its (P & U & _) F IH]; [reflexivity|]. cbn [map seqopt]. rewrite U, IH. reflexivity. Qed.
Lemma vals_real l its : Forall2 is_val l its -> Forall real its.
Proof. induction 1 as [|v it vs its (P & _) F IH]; constructor; [apply plain_real, P|exact IH]. Qed.
Lemma array_says l its elems : Forall2 is_val l its -> vals elems = its -> unwrap (IArray (group_values elems) default_trivia false) = Some (PList l).
Proof.
  intros F E. rewrite unwrap_array.
  assert (Er : elems_real elems). { unfold elems_real. rewrite E. clear -F. induction F as [|v it vs its (P & _) F IH]; constructor; [apply plain_real, P|exact IH]. }
  rewrite shown_reals; rewrite (group_values_reals _ Er); [rewrite E, (is_vals l its F); reflexivity|exact Er].
Qed.
Lemma comes_array w l : fills false w l -> comes ([91%N] ++ w ++ [93%N]) (PList l).
Proof.
  intros H sf sp t pre mk Hs Ht Q. destruct (H [] w eq_refl ltac:(constructor) (or_intror eq_refl) sf [] None (pre ++ [91%N]) (List.length pre) (sp ++ t)) as (m & es & mk' & F & Fi & Em & R).
  { rewrite <- !app_assoc in Q. exact (calm_app sf [91%N] _ Q). } { split; discriminate. } { split; [exact I|]. intros X. destruct (X eq_refl). } { discriminate. }
  cbn [app] in Fi, R. pose proof (vals_real _ _ F) as Er. assert (Lv : List.length (vals es) = List.length l) by (clear -F; induction F; cbn; congruence).
  exists (S m), (IArray (group_values es) default_trivia false), [], sp, mk'. split; [reflexivity|].
  split. { assert (Sn : snug (IArray (group_values es) default_trivia false) (PList l)).
    { apply sg_array; rewrite ?(group_values_reals es Er).
      - exact Er.
      - intros its vs L Ri D. rewrite (group_values_reals es Er) in L. rewrite plug_values by assumption. rewrite group_values_text by (eapply replug_fits; [|exact Fi]; repeat split; auto). apply Em; [congruence|exact D].
      - apply elems_all. clear -F. induction F as [|? ? ? ? (_ & _ & Sn) _ IH]; constructor; assumption. }
    split; try reflexivity; [eapply array_says; eauto|apply snug_text, Sn|eapply snug_last, Sn|exact Sn|intros q; reflexivity]. }
  split; [reflexivity|]. rewrite app_nil_r. cbn [app]. rewrite <- app_assoc. cbn [app].
  assert (Ex : exists c y, w ++ 93%N :: sp ++ t = c :: y) by (destruct w; cbn [app]; eauto). destruct Ex as (c & y & Ex). rewrite Ex in *. change 91%N with chLBR in *.
  rewrite value_lbr, R. rewrite <- app_assoc. reflexivity.
Qed.

(** * Inline tables *)
Lemma blanks_ws_run {sf} c (sp : str) st : ((if nonempty sp then add_elem sf c None (IWs sp false) else ret c) : M container) st = (Ok (opened c sp), st).
Proof.
  destruct sp as [|x sp]; [reflexivity|]. unfold add_elem, cappend. destruct (app_fuel_pos c None (IWs (x :: sp) false)) as [q ->]. cbn [nonempty]. rewrite append_ws. reflexivity.
Qed.
(** What follows an entry of an inline table and the blanks [raw] after it. *)
Definition after_raw (sf : bool) (n : nat) (raw : str) (c : container) : M item :=
  c0 <- current ;; if (c0 =? chCOMMA)%N then lossy_if (sf && nonempty raw) 3 ;;; inc_exn KUnexpectedEof ;;; inline_loop sf n c (Some true) else inline_loop sf n c (Some false).
Lemma inline_begin {sf} n c tc pre sp d r mk : blanks sp -> is_spaces d = false -> d <> chRCB -> d <> chCOMMA -> tc <> Some false ->
  inline_loop sf (S n) c tc (mkSt pre (sp ++ d :: r) mk) =
  (kv <- key_value_with sf (parse_value sf n) n false ;;
   elems <- add_elem sf (opened c sp) (Some (fst kv)) (snd kv) ;;
   a <- idxM ;;
   adv_whileM is_spaces ;;;
   raw <- since a ;;
   elems <- (if nonempty raw then add_elem sf elems None (IWs raw false) else ret elems) ;;
   after_raw sf n raw elems) (mkSt (pre ++ sp) (d :: r) mk).
Proof.
  intros Hsp D1 D2 D3 Htc. apply N.eqb_neq in D2, D3. cbn [inline_loop]. unfold bind at 1, idxM, idx. cbn [p_pre]. unfold bind at 1, adv_whileM.
  rewrite adv_blanks by (auto using blanks_spaces). unfold bind at 1. rewrite idx_since. unfold bind at 1. rewrite blanks_ws_run.
  unfold bind at 1, current at 1, cur. cbn [p_rest]. rewrite D2, andb_false_r.
  destruct tc as [[|]|]; [|congruence|]; cbv iota beta; rewrite ?D2, ?D3; cbn [orb]; reflexivity.
Qed.
(** How a pair in an inline table is written; a date in a dotted pair keeps its spaces. *)
Lemma norm_inline k it sep : value_item it -> key_fresh k -> tr_indent (item_trivia it) = [] -> tr_comment (item_trivia it) = [] -> tr_trail (item_trivia it) = [] ->
  exists k' it' e, norm_entry (Some (key_set_sep sep k)) it = (Some k', it') /\ ient k' it' = key_string k ++ sep ++ item_string it ++ e /\ (e = [] \/ e = tr_cws (item_trivia it)) /\
    ((it' = it /\ k_dotted k' = false /\ k_orig k' = key_string k /\ k_sep k' = sep /\ key_names k = [k_key k']) \/ (is_table it' = true /\ exists ns, ns <> [] /\ key_names k = k_key k' :: ns)).
Proof.
  intros Hv (F1 & F2 & F3 & F4) Hi T2 T3. destruct k as [k|ks s o].
  - cbn [key_set_sep norm_entry kstr]. exists (set_sep sep k), (set_name (k_key (set_sep sep k)) it), []. split; [reflexivity|]. 
    assert (E : set_name (k_key (set_sep sep k)) it = it) by (destruct it; try contradiction; reflexivity). cbn [key_parts] in F2. inversion F2 as [|? ? [D _] _]; subst.
    split; [|split; [left; reflexivity|left; split; [exact E|split; [exact D|auto]]]]. unfold ient. rewrite E, Hi, T2, T3.
    cbn [set_sep k_orig k_dotted k_sep key_string]. rewrite D.
    cbn [app]. replace (replace [chLF] [] []) with (@nil N) by reflexivity. rewrite !app_nil_r. reflexivity.
  - cbn [key_set_sep norm_entry]. destruct ks as [|x [|y rest]]; cbn in F4; try lia. eexists _, _, (tr_cws (item_trivia it)). split; [reflexivity|]. split; [|split; [right; reflexivity|right; split; [reflexivity|exists (map k_key (y :: rest)); split; [discriminate|reflexivity]]]].
    unfold ient. cbn [set_name tm_name super_meta item_string]. rewrite dotted_cont; [|exact Hv|discriminate]. unfold kv_text, tail_text. rewrite Hi, T2, T3.
    cbn [item_trivia tm_trivia tr_indent tr_comment tr_trail default_trivia app]. cbn [set_dotted k_orig k_dotted k_sep].
    cbn [key_parts] in F1, F2. inversion F2 as [|? ? [_ D] _]; subst. rewrite D. cbn [key_string] in *. rewrite F1.
    rewrite (origs_cons x) by discriminate. replace (replace [chLF] [] [chLF]) with (@nil N) by reflexivity. rewrite !app_nil_r, <- !app_assoc. reflexivity.
Qed.
Definition wsl (sp : str) : list (option skey * item) := match sp with [] => [] | _ => [(None, IWs sp false)] end.
Lemma opened_body c sp : c_body (opened c sp) = c_body c ++ wsl sp.
Proof. destruct sp; [symmetry; apply app_nil_r|]. destruct c. reflexivity. Qed.
Lemma wsl_text sp : ctext (wsl sp) = sp.
Proof. destruct sp; [reflexivity|]. cbn. rewrite app_nil_r. reflexivity. Qed.
Lemma wsl_spaces sp : blanks sp -> Forall spaces_entry (wsl sp).
Proof. intros H. destruct sp as [|x sp]; constructor; [|constructor]. exists (x :: sp), false. split; [reflexivity|]. apply blanks_spaces, H. Qed.
Lemma wsl_snug sp l : blanks sp -> sfields l (wsl sp) l.
Proof. intros H. destruct sp as [|x sp]; [constructor|]. apply sf_void; [split; [reflexivity|exact H]|constructor]. Qed.
Lemma grows_parts c t : grows c t -> consistent c /\ c_parsed c = true.
Proof. intros (P & h & C & _). auto. Qed.
(** One more pair. *)
Lemma opened_grows c sp t : grows c t -> grows (opened c sp) t.
Proof. destruct sp as [|x sp]; [auto|]. apply (grows_void c (IWs (x :: sp) false)). Qed.
Lemma pair_added c t K it v t2 : grows c t -> key_shape K -> plain it -> unwrap it = Some v -> put (key_names K) v t t2 ->
  exists c', (forall sf, cappend sf c (Some K) it = Ok c') /\ (forall sf, table_raw_append sf c (Some K) it = Ok c') /\ grows c' t2 /\ c_body c' = c_body c ++ [norm_entry (Some K) it].
Proof. intros Hg Sh P U Hp. destruct (grows_put c t K it v t2 Hg Sh P U Hp) as (c2 & A & B & C & D). eauto 6. Qed.
Lemma key_names_sep s K : key_names (key_set_sep s K) = key_names K /\ (key_shape K -> key_shape (key_set_sep s K)).
Proof. destruct K; split; cbn; auto. Qed.
Lemma exists_last_or {A} (l : list A) : l = [] \/ exists x y, l = x ++ [y].
Proof. destruct l as [|a l]; [left; reflexivity|]. right. destruct (@exists_last _ (a :: l)) as (x & y & E); [discriminate|]. eauto. Qed.
Lemma fields_blank b l w l2 : blanks b -> fields l w l2 -> fields l (b ++ w) l2.
Proof.
  intros Hb H. inversion H as [b0 k names s u v z ? ? Hb0 Hk Hs Hu Hz Hp|b0 k names s u v z r ? l1 ? Hb0 Hk Hs Hu Hz Hp Hr]; subst.
  - rewrite (app_assoc b b0). eapply fd_last; eauto using blanks_app.
  - rewrite (app_assoc b _ ([44%N] ++ r)), (app_assoc b b0). eapply fd_more; eauto using blanks_app.
Qed.
Lemma entry_run sf c l tc b k names s w v l2 z rest pre mk : grows c l -> tc <> Some false -> blanks b -> key_means k names -> sep_text s -> comes w v -> put names v l l2 -> blanks z ->
  (exists d r', rest = d :: r' /\ (d = chCOMMA \/ d = chRCB)) -> calm sf (b ++ k ++ s ++ w ++ z ++ rest) ->
  exists m c' mk' b' k' s' w' e' sk it z', grows c' l2 /\ c_body c' = (c_body c ++ wsl b') ++ (Some sk, it) :: wsl z' /\ ient sk it = k' ++ s' ++ w' ++ e' /\
    blanks b' /\ key_means k' names /\ sep_text s' /\ denotes w' v /\ blanks e' /\ blanks z' /\ lastc (ient sk it) /\ (sf = true -> forall r', rest = chCOMMA :: r' -> z' = []) /\ (forall es l3, sfields l2 es l3 -> sfields l ((Some sk, it) :: es) l3) /\
    forall n, m <= n -> inline_loop sf (S n) c tc (mkSt pre (b ++ k ++ s ++ w ++ z ++ rest) mk) = after_raw sf n z' c' (mkSt (pre ++ b ++ k ++ s ++ w ++ z) rest mk').
Proof.
  intros Hs Htc Hb Hk (a1 & b1 & -> & Ha1 & Hb1) Hw Hc Hz (d & r' & Er & Hd) Q.
  destruct (key_lead k names Hk) as (a & k' & -> & Ha & Hk' & Hh).
  destruct (comes_start w v Hw) as (x & w' & Ew & Vs). destruct (vstart_facts x Vs) as (_ & _ & Kx & _).
  pose proof (key_blank k' names a1 Hk' Ha1) as Hka.
  set (p1 := pre ++ b ++ a).
  destruct (key_run (k' ++ a1) names Hka (S (List.length (k' ++ a1))) p1 ([61%N] ++ b1 ++ w ++ z ++ rest) (List.length p1)) as (K & mk1 & Ek & En & Es); [cbn; tauto|discriminate|lia|].
  (* the spaces after the value *)
  destruct (split_sps z) as (sp & z' & -> & Hsp & Hz').
  assert (Dt : date_tail (z' ++ rest)).
  { apply Forall_app in Hz as [_ Hz2]. destruct z' as [|y z']; cbn [app].
    - rewrite Er. cbn. destruct Hd as [-> | ->]; reflexivity.
    - inversion Hz2 as [|? ? Hy _]; subst. cbn. apply date_stop_ws; [left; destruct Hy as [->| ->]; reflexivity|]. intros ->. eapply Hz'. reflexivity. }
  set (p2 := (p1 ++ k' ++ a1) ++ [61%N] ++ b1).
  do 3 apply calm_app in Q. rewrite <- app_assoc in Q. pose proof Q as Q2. apply calm_app in Q2.
  destruct (Hw sf sp (z' ++ rest) p2 (List.length (p1 ++ k' ++ a1)) Hsp Dt Q) as (n0 & it & e & s & mk2 & -> & G & Ee & Rv). pose proof (got_plain _ _ _ G) as P. pose proof (got_unwrap _ _ _ G) as U.
  set (it2 := set_trivia (mkTrivia [] (tr_cws (item_trivia it)) (tr_comment (item_trivia it)) []) it).
  assert (P2 : plain it2) by (subst it2; destruct it; try destruct P; exact I).
  assert (U2 : unwrap it2 = Some v) by (subst it2; rewrite unwrap_trivia; exact U).
  set (sep := [61%N] ++ b1). destruct (key_names_sep sep K) as [Kn Ks].
  destruct (pair_added (opened c (b ++ a)) l (key_set_sep sep K) it2 v l2 (opened_grows _ _ _ Hs) (Ks Es) P2 U2) as (c1 & Ea & _ & Hs1 & Bd); [rewrite Kn, En; exact Hc|].
  assert (Bs : blanks (s ++ z')). { rewrite <- app_assoc in Hz. apply Forall_app in Hz. apply Hz. }
  destruct (set_trivia_get (mkTrivia [] (tr_cws (item_trivia it)) (tr_comment (item_trivia it)) []) it (got_value _ _ _ G)) as (G1 & G2 & G3). fold it2 in G1, G2, G3.
  destruct (parse_key_text _ _ _ _ Ek) as (Ka & Kf). assert (Kt : key_string K = k' ++ a1) by (eapply adds_inj; [exact Ka|reflexivity]).
  destruct (norm_inline K it2 sep G3 Kf) as (sk & it3 & e' & Ne & Ie & Oe & Of); [rewrite G1; reflexivity|rewrite G1; apply G|rewrite G1; reflexivity|].
  rewrite G1 in Oe. cbn [tr_cws] in Oe. rewrite (got_cws _ _ _ G) in Oe. rewrite Ne, opened_body in Bd. rewrite Kt, G2 in Ie.
  assert (Dn : dent names v sk it3).
  { destruct (key_dent (key_set_sep sep K) it2 v (Ks Es) P2 U2) as (sk0 & it0 & D0 & _ & N0). rewrite Ne in N0. injection N0 as <- ->. fold (key_names (key_set_sep sep K)) in D0. rewrite Kn, En in D0. apply dent_name, D0. }
  assert (Be : blanks e'). { destruct Oe as [-> | ->]; [constructor|]. rewrite <- app_assoc in Hz. apply Forall_app in Hz. apply Hz. }
  exists (n0 + S (List.length (k' ++ a1))), (opened c1 (s ++ z')), mk2, (b ++ a), (k' ++ a1), sep, (item_string it), e', sk, it3, (s ++ z'). split; [apply opened_grows, Hs1|].
  split; [rewrite opened_body, Bd, <- !app_assoc; reflexivity|]. split; [exact Ie|]. split; [apply blanks_app; assumption|]. split; [exact Hka|].
  split; [exists [], b1; split; [reflexivity|split; [constructor|exact Hb1]]|]. split; [apply G|]. split; [exact Be|]. split; [exact Bs|].
  split. { rewrite Ie, (app_assoc (k' ++ a1)), (app_assoc _ (item_string it)). destruct (exists_last_or e') as [-> |(x0 & y0 & Ey)]; [rewrite app_nil_r; apply lastc_app, G|]. apply lastc_app. exists x0, y0. split; [exact Ey|].
    rewrite Ey in Be. apply Forall_app in Be as [_ Be]. inversion Be as [|? ? Hy _]; subst. destruct Hy as [->| ->]; discriminate. }
  assert (Ec : sf && nonempty (tr_cws (item_trivia it)) = false) by (rewrite (got_cws _ _ _ G); destruct sf; [rewrite Ee; reflexivity|reflexivity]).
  split.
  { intros X q Eq. destruct (exists_last_or (s ++ z')) as [E0|(x0 & y0 & E0)]; [exact E0|]. exfalso. destruct (Q2 X) as [_ Nb]. rewrite E0 in Bs. apply Forall_app in Bs as [_ Bs]. inversion Bs as [|? ? Hy _]; subst.
    apply (f_equal (fun q0 => q0 ++ chCOMMA :: q)) in E0. rewrite <- !app_assoc in E0. rewrite <- !app_assoc, Eq, E0 in Nb. specialize (Nb (e ++ x0) y0 q). rewrite <- !app_assoc in Nb. specialize (Nb eq_refl). destruct Hy as [->| ->]; discriminate Nb. }
  split.
  { intros es l3 Hes. assert (Hn : key_means (k' ++ a1) (key_names K)) by (rewrite En; exact Hka). rewrite En in Of. clear Rv Ek. destruct Of as [(-> & O1 & O2 & O3 & O4)|(O1 & ns & O2 & O3)].
    - assert (Hp : ~ In (k_key sk) (map fst l) /\ l2 = l ++ [(k_key sk, Value v)]).
      { rewrite O4 in Hc. inversion Hc as [x0 x1 x2 Ni|x0 x1 x2 x3 x4 Ni Pp|x0 x1 x2 x3 x4 x5 x6 Pp]; subst; [auto| |]; inversion Pp. }
      destruct Hp as [Ni ->]. apply sf_pair with (v := v); auto.
      + rewrite O2, Kt. rewrite O4 in Hka. inversion Hka as [q1 q2 Nq|q1 q2 q3 q4 Nq Kq]; subst; [exact Nq|inversion Kq].
      + rewrite O3. exists [], b1. split; [reflexivity|split; [constructor|exact Hb1]].
      + apply unmoved_trivia; [exact P|apply G].
      + rewrite G1. split; [constructor|]. split; [apply G|left; reflexivity].
      + apply snug_trivia; [exact P|apply G|apply G].
    - eapply (sf_dotted sk it3 (k' ++ a1) sep (item_string it) e' ns v es l l2 l3); auto.
      + rewrite <- O3. exact Hka.
      + exists [], b1. split; [reflexivity|split; [constructor|exact Hb1]].
      + apply G.
      + rewrite Ie, (app_assoc (k' ++ a1)), (app_assoc _ (item_string it)). destruct (exists_last_or e') as [-> |(x0 & y0 & Ey)]; [rewrite app_nil_r; apply lastc_app, G|]. apply lastc_app. exists x0, y0. split; [exact Ey|].
        rewrite Ey in Be. apply Forall_app in Be as [_ Be]. inversion Be as [|? ? Hy _]; subst. destruct Hy as [->| ->]; discriminate.
      + rewrite <- O3. exact Dn.
      + rewrite <- O3. exact Hc. }
  clear G G1 G2 G3 Ka Kf Kt Ne Ie Oe Of Be Bd. intros n Hge.
  apply (mle_up _ (parse_key n)) in Ek; [|apply mle_parse_key; lia]. apply (value_up n0 n) in Rv; [|lia].
  destruct k' as [|kc k']; [destruct Hh|]. destruct Hh as (H1 & H2 & H3).
  replace (b ++ (a ++ kc :: k') ++ (a1 ++ sep) ++ w ++ ((e ++ s) ++ z') ++ rest) with ((b ++ a) ++ kc :: (k' ++ a1 ++ sep ++ w ++ (e ++ s) ++ z' ++ rest))
    by (subst sep; rewrite <- !app_assoc; reflexivity).
  rewrite inline_begin by (auto using blanks_app). fold p1. unfold bind at 1. unfold key_value_with. unfold bind at 1, mark, set_mark. cbn [p_pre p_rest]. unfold bind at 1, adv_whileM at 1.
  rewrite adv_none by exact H1. unfold bind at 1, extractM at 1, extract. cbn [p_mark p_pre]. rewrite skipn_all. unfold bind at 1.
  replace (kc :: k' ++ a1 ++ sep ++ w ++ (e ++ s) ++ z' ++ rest) with (((kc :: k') ++ a1) ++ [61%N] ++ b1 ++ w ++ ((e ++ s) ++ z') ++ rest)
    by (subst sep; rewrite <- !app_assoc; reflexivity). rewrite Ek.
  unfold bind at 1. replace (w ++ ((e ++ s) ++ z') ++ rest) with (x :: w' ++ ((e ++ s) ++ z') ++ rest) by (rewrite Ew; reflexivity).
  rewrite sep_blanks by assumption. fold sep. unfold bind at 1.
  replace (x :: w' ++ ((e ++ s) ++ z') ++ rest) with (w ++ (e ++ s) ++ z' ++ rest) by (rewrite Ew, <- !app_assoc; reflexivity).
  subst p2. fold sep in Rv. rewrite Rv. cbv zeta. cbn [andb]. rewrite Ec. unfold bind at 1, lossy_if, ret at 1. unfold bind at 1, ret at 1. unfold ret at 1. cbn [fst snd]. fold it2.
  unfold bind at 1, add_elem at 1, lift. rewrite Ea. unfold bind at 1, idxM, idx. cbn [p_pre]. unfold bind at 1, adv_whileM. rewrite Er.
  rewrite (app_assoc s z'). rewrite adv_blanks by (auto using blanks_spaces; destruct Hd as [-> | ->]; reflexivity).
  unfold bind at 1. rewrite idx_since. unfold bind at 1. rewrite blanks_ws_run. unfold sep, p1. rewrite <- !app_assoc. cbn [app]. rewrite <- ?app_assoc. reflexivity.
Qed.
Lemma after_shut sf n raw c tail pre mk : after_raw sf (S n) raw c (mkSt pre (chRCB :: tail) mk) = (Ok (IInline c default_trivia false), mkSt (pre ++ [chRCB]) tail mk).
Proof.
  unfold after_raw, bind, current, cur. cbn [p_rest]. change (chRCB =? chCOMMA)%N with false. cbv iota. apply inline_close. discriminate.
Qed.
Lemma after_next sf n raw c d r pre mk : (sf = true -> raw = []) -> after_raw sf n raw c (mkSt pre (chCOMMA :: d :: r) mk) = inline_loop sf n c (Some true) (mkSt (pre ++ [chCOMMA]) (d :: r) mk).
Proof. intros H. unfold after_raw. replace (sf && nonempty raw) with false by (destruct sf; [rewrite H; reflexivity|reflexivity]). reflexivity. Qed.
Definition pairs_come (l : list (str * node)) (w : str) (l2 : list (str * node)) : Prop := forall sf c tc pre mk tail, calm sf (w ++ 125%N :: tail) -> grows c l -> tc <> Some false ->
  exists m c' mk' u, grows c' l2 /\ fields l u l2 /\ (exists es, c_body c' = c_body c ++ es /\ sfields l es l2) /\ item_string (IInline c' default_trivia false) = [123%N] ++ ctext (c_body c) ++ u ++ [125%N] /\ inline_loop sf m c tc (mkSt pre (w ++ 125%N :: tail) mk) = (Ok (IInline c' default_trivia false), mkSt (pre ++ w ++ [125%N]) tail mk').
Lemma nodup_mid {A} (a b : list A) x : NoDup (a ++ x :: b) -> ~ In x a.
Proof. intros H X. apply NoDup_remove_2 in H. apply H, in_or_app. auto. Qed.
Lemma pairs_last b k names s w v z l l2 : blanks b -> key_means k names -> sep_text s -> comes w v -> blanks z -> put names v l l2 -> pairs_come l (b ++ k ++ s ++ w ++ z) l2.
Proof.
  intros Hb Hk Hs Hw Hz Hp sf c tc pre mk tail Q Sh Htc.
  destruct (entry_run sf c l tc b k names s w v l2 z (125%N :: tail) pre mk) as (m & c' & mk' & b' & k' & s' & w' & e' & sk & it & z' & S' & Bd & Ie & Bb & Km & Sp & Dn & Be & Bz & La & Zc & Sf & R); auto.
  { exists 125%N, tail. auto. } { rewrite <- !app_assoc in Q. exact Q. }
  exists (S (S m)), c', mk', (b' ++ k' ++ s' ++ w' ++ e' ++ z'). split; [exact S'|]. split; [eapply fd_last; eauto using blanks_app|].
  split. { exists (wsl b' ++ (Some sk, it) :: wsl z'). split; [rewrite Bd, <- app_assoc; reflexivity|]. eapply sfields_app; [apply wsl_snug, Bb|]. apply Sf, wsl_snug, Bz. }
  split. { destruct c' as [bd ? ? ? ?]. cbn [c_body] in Bd. rewrite Bd, inline_text_kv, ctext_app, !wsl_text, Ie by auto using wsl_spaces. rewrite <- !app_assoc. reflexivity. } rewrite <- !app_assoc. rewrite (R (S m)) by lia. change 125%N with chRCB. rewrite after_shut. rewrite <- !app_assoc. reflexivity.
Qed.
Lemma fields_ne l w l2 : fields l w l2 -> w <> [].
Proof.
  intros H X. assert (G : forall b k names (t : str), key_means k names -> b ++ k ++ t <> []).
  { intros b k names t Hk E. destruct (key_lead k names Hk) as (a & k' & -> & _ & _ & Hh). destruct k'; [destruct Hh|]. destruct b, a; discriminate. }
  inversion H as [b k names s u v z l0 l0' Hb Hk Hs Hu Hz Hp E1 E E2|b k names s u v z r l0 l1 l0' Hb Hk Hs Hu Hz Hp Hr E1 E E2]; subst.
  - eapply G; [exact Hk|exact E].
  - apply app_eq_nil in E as [E _]. eapply G; [exact Hk|exact E].
Qed.
Lemma pairs_more b k names s w v z r0 l l1 l2 : blanks b -> key_means k names -> sep_text s -> comes w v -> blanks z -> put names v l l1 -> r0 <> [] -> pairs_come l1 r0 l2 ->
  pairs_come l ((b ++ k ++ s ++ w ++ z) ++ [44%N] ++ r0) l2.
Proof.
  intros Hb Hk Hs Hw Hz Hp Hne IH sf c tc pre mk tail Q Sh Htc.
  destruct (entry_run sf c l tc b k names s w v l1 z ([44%N] ++ r0 ++ 125%N :: tail) pre mk) as (m & c' & mk' & b' & k' & s' & w' & e' & sk & it & z' & S' & Bd & Ie & Bb & Km & Sp & Dn & Be & Bz & La & Zc & Sf & R); auto.
  { eexists _, _. split; [reflexivity|auto]. } { rewrite <- !app_assoc in Q. exact Q. }
  destruct (IH sf c' (Some true) ((pre ++ b ++ k ++ s ++ w ++ z) ++ [44%N]) mk' tail ltac:(rewrite <- !app_assoc in Q; do 5 apply calm_app in Q; exact (calm_app sf [44%N] _ Q)) S') as (m2 & c2 & mk2 & u & S2 & Fd & (es & Be2 & Se) & Tx & R2); [discriminate|].
  exists (S (m + m2)), c2, mk2, ((b' ++ k' ++ s' ++ w' ++ e') ++ [44%N] ++ z' ++ u). split; [exact S2|]. split; [eapply fd_more; eauto using fields_blank|].
  split. { exists (wsl b' ++ ((Some sk, it) :: wsl z') ++ es). split; [rewrite Be2, Bd, <- !app_assoc; reflexivity|]. eapply sfields_app; [apply wsl_snug, Bb|]. apply Sf. fold (@app bent). eapply sfields_app; [apply wsl_snug, Bz|exact Se]. }
  split. { rewrite Tx, Bd, ctext_app. rewrite ctext_app. change ((Some sk, it) :: wsl z') with ([(Some sk, it)] ++ wsl z'). rewrite ctext_app, !wsl_text. cbn [ctext flat_map fst snd]. rewrite Ie, app_nil_r. rewrite <- !app_assoc. reflexivity. } rewrite <- !app_assoc. rewrite (R (m + m2)) by lia.
  destruct r0 as [|x r0]; [congruence|]. cbn [app] in *. change 44%N with chCOMMA in *. rewrite after_next by (intros X; eapply Zc; [exact X|reflexivity]). apply (inline_up m2 (m + m2)) in R2; [|lia]. rewrite R2. rewrite <- !app_assoc. cbn [app]. rewrite <- ?app_assoc. reflexivity.
Qed.
Lemma comes_inline w l : w <> [] -> pairs_come [] w l -> comes ([123%N] ++ w ++ [125%N]) (PDict (dict_of l)).
Proof.
  intros Hn H sf sp t pre mk Hs Ht Q. destruct (H sf (empty_cont true) None (pre ++ [123%N]) (List.length pre) (sp ++ t) ltac:(rewrite <- !app_assoc in Q; exact (calm_app sf [123%N] _ Q)) grows_empty) as (m & c' & mk' & u & S' & Fd & (es & Bd & Sf) & Tx & R); [discriminate|]. cbn [app] in Tx.
  exists (S m), (IInline c' default_trivia false), [], sp, mk'. split; [reflexivity|].
  split. { split; try reflexivity; [rewrite unwrap_inline, (holds_unwrap c' _ (ex_intro _ l (conj S' eq_refl))); reflexivity|rewrite Tx; apply (dn_inline u), Fd|rewrite Tx; exists (123%N :: u), 125%N; split; [reflexivity|discriminate]| |apply inline_unmoved].
    cbn [empty_cont c_body app] in Bd. subst es. apply sg_inline; [apply grows_parts in S'; apply S'|left; apply grows_parts in S'; apply S'|discriminate|exact Sf]. }
  split; [reflexivity|]. rewrite app_nil_r. cbn [app]. rewrite <- app_assoc. cbn [app]. destruct w as [|x w]; [congruence|]. cbn [app] in *. change 123%N with chLCB in *.
  rewrite value_lcb, R. rewrite <- app_assoc. reflexivity.
Qed.
Lemma comes_empty b : blanks b -> comes ([123%N] ++ b ++ [125%N]) (PDict []).
Proof.
  intros Hb sf sp t pre mk Hs Ht _. exists 2, (IInline (opened (empty_cont true) b) default_trivia false), [], sp, (List.length pre). split; [reflexivity|].
  split. { assert (X : item_string (IInline (opened (empty_cont true) b) default_trivia false) = [123%N] ++ b ++ [125%N]).
    { destruct b as [|x b]; [reflexivity|]. cbn [opened add_ws empty_cont app]. rewrite inline_text_ws by (apply (wsl_spaces (x :: b)), Hb). cbn. rewrite app_nil_r. reflexivity. }
    split; try reflexivity; [destruct b; reflexivity|rewrite X; apply dn_empty, Hb|rewrite X; exists (123%N :: b), 125%N; split; [reflexivity|discriminate]| |apply inline_unmoved].
    apply (sg_inline _ _ _ []); [eapply grows_parts, opened_grows, grows_empty|left; destruct b; reflexivity|discriminate|]. rewrite opened_body. apply wsl_snug, Hb. } split; [reflexivity|]. rewrite app_nil_r. cbn [app]. rewrite <- app_assoc. cbn [app].
  assert (Ex : exists c y, b ++ 125%N :: sp ++ t = c :: y) by (destruct b; cbn [app]; eauto). destruct Ex as (c & y & Ex). rewrite Ex. change 123%N with chLCB. rewrite value_lcb, <- Ex.
  cbn [inline_loop]. unfold bind at 1, idxM, idx. cbn [p_pre]. unfold bind at 1, adv_whileM. rewrite adv_blanks by (auto using blanks_spaces).
  unfold bind at 1. rewrite idx_since. unfold bind at 1. rewrite blanks_ws_run. unfold bind at 1, current at 1, cur. cbn [p_rest]. change (125 =? chRCB)%N with true. cbn [andb].
  unfold bind, incM, inc. cbn [p_rest p_pre p_mark]. change 125%N with chRCB. change chLCB with 123%N. rewrite <- !app_assoc. cbn [app]. destruct (sp ++ t); reflexivity.
Qed.
Theorem all_come : (forall w v, denotes w v -> comes w v) /\ (forall after w l, elements after w l -> fills after w l) /\ (forall l w l2, fields l w l2 -> pairs_come l w l2).
Proof.
  apply denote_mut; intros.
  - eapply comes_string; eauto.
  - apply (comes_bool true).
  - apply (comes_bool false).
  - apply comes_scalar; [apply int_reads; assumption|constructor; assumption].
  - apply comes_scalar; [apply float_reads; assumption|constructor; assumption].
  - apply comes_date. assumption.
  - apply comes_scalar; [apply time_reads; assumption|constructor; assumption].
  - apply comes_datetime. assumption.
  - apply comes_array. assumption.
  - apply comes_empty. assumption.
  - apply comes_inline; auto. eapply fields_ne; eauto.
  - apply fills_end. assumption.
  - apply fills_value; assumption.
  - apply fills_comma; assumption.
  - eapply pairs_last; eauto.
  - eapply pairs_more; eauto. eapply fields_ne; eauto.
Qed.
(** The whole text. *)
Lemma value_run w it n st : parse_value false n (start w) = (Ok it, st) -> p_rest st = [] -> value_of w = Ok it.
Proof.
  intros E2 R. assert (E3 : parse_value false (parse_fuel w) (start w) = (Ok it, st)).
  { destruct (Nat.le_ge_cases n (parse_fuel w)) as [L|L].
    - destruct (mle_value false n (parse_fuel w) false false L (or_introl eq_refl) (start w)) as [(e & s & K & _)|K]; [rewrite E2 in K; discriminate|rewrite K; exact E2].
    - destruct (mle_value false (parse_fuel w) n false false L (or_introl eq_refl) (start w)) as [(e & s & K & B)|K]; [|rewrite <- K; exact E2]. exfalso. apply (value_of_fuel w). unfold value_of. unfold bind at 1. rewrite K. destruct e; try (destruct B; fail); [discriminate B|reflexivity]. }
  unfold value_of. unfold bind at 1. rewrite E3. unfold bind, endM, current, at_end. rewrite R. reflexivity.
Qed.
Lemma denotes_snug w v it : denotes w v -> value_of w = Ok it -> snug it v.
Proof.
  intros H V. destruct (proj1 all_come w v H false [] [] [] 0) as (n & it0 & e & s & mk' & Es & G & _ & E); [constructor|exact I|apply calm_false|]. symmetry in Es. apply app_eq_nil in Es as [-> ->].
  cbn [app] in E. rewrite !app_nil_r in E. rewrite (value_run w it0 n _ E eq_refl) in V. injection V as <-. exact (got_snug _ _ _ G).
Qed.
Theorem denotes_value w v : denotes w v -> exists it, value_of w = Ok it /\ unwrap it = Some v.
Proof.
  intros H. destruct (proj1 all_come w v H false [] [] [] 0) as (n & it & e & s & mk' & Es & G & _ & E); [constructor|exact I|apply calm_false|]. pose proof (got_unwrap _ _ _ G) as U. symmetry in Es. apply app_eq_nil in Es as [-> ->].
  exists it. split; [|exact U]. cbn [app] in E. rewrite !app_nil_r in E. eapply value_run; [exact E|reflexivity].
Qed.
Lemma denotes_lastc w v : denotes w v -> lastc w.
Proof.
  intros H. pose proof H as H0. apply (proj1 all_come) in H0.
  assert (G : forall a, denotes w a -> (forall l, a <> PList l) -> (forall d, a <> PDict d) -> lastc w).
  { intros a Ha Nl Nd. apply (proj1 all_come) in Ha. destruct (Ha false [] [chLF] [] 0) as (n & it & e & s & mk' & Es & G & _ & E); [constructor|reflexivity|apply calm_false|]. symmetry in Es. apply app_eq_nil in Es as [-> ->].
    pose proof (got_unwrap _ _ _ G) as U. pose proof (got_value _ _ _ G) as V. destruct it as [ | | |sv tr|gs tr ml|c tr new| | ]; try destruct V.
    - pose proof (scalar_read _ _ _ _ _ _ E) as (A & _ & _ & _ & La). cbn [item_string item_trivia] in *. pose proof (got_cws _ _ _ G) as W. cbn [item_trivia] in W. rewrite W, app_nil_r in A. replace w with (scalar_string sv); [exact La|]. eapply adds_inj; [exact A|]. cbn [app]. rewrite app_nil_r. reflexivity.
    - exfalso. rewrite unwrap_array in U. destruct (seqopt _); [|discriminate]. injection U as <-. eapply Nl. reflexivity.
    - exfalso. rewrite unwrap_inline in U. destruct (unwrap_cont c); [|discriminate]. injection U as <-. eapply Nd. reflexivity. }
  destruct H; try (eapply G; [econstructor; eassumption || (econstructor; eassumption)|discriminate|discriminate]).
  - exists ([91%N] ++ w), 93%N. split; [rewrite <- app_assoc; reflexivity|discriminate].
  - exists ([123%N] ++ b), 125%N. split; [rewrite <- app_assoc; reflexivity|discriminate].
  - exists ([123%N] ++ w), 125%N. split; [rewrite <- app_assoc; reflexivity|discriminate].
Qed.
