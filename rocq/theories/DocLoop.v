(** DocLoop: the lines below a header, and the lines at the top of a document (C40). *)
From Verif Require Import Base Source Utils Items Container Arrays Parser Api Lemmas Escape Strings StringRT StringApi Numbers Floats Dates Keys Reader Consist OMap ContOps Wf Fuel FuelParse Mono ListSpec ArrayLemmas ItemInd PyVal PyItem ItemConv Unwrap DumpText DumpCont DumpValue DumpHead DumpChain DumpDoc DumpTop Grammar Meaning Denote Lines Document CompStr CompNum CompDate CompKey CompValue Render Neat Ends DocLine.
From Coq Require Import ZifyBool ZifyNat ZifyN.
Open Scope nat_scope.

Lemma append_void {sf} n prox c i val : void_item i -> append (S n) prox sf c None i val = Ok (add_void c i).
Proof. destruct c as [body m p tks d]. destruct i as [s [|]| | | | | | | ]; intros []; reflexivity. Qed.
Lemma void_line i t : void_item i -> item_string i = t -> (inb chLF t = true -> line_closed i) -> eol t -> nline (None, i) None.
Proof.
  intros Hi Es Hc He. apply nl_void; [destruct i as [? [|]| | | | | | | ]; try destruct Hi; exact I| |apply Hc, eol_inb, He]. rewrite Es. rewrite <- (app_nil_r t). constructor; [exact He|constructor].
Qed.
(** White space at the end of the body is the end of the text read so far. *)
Definition wsend (c : container) (pre : str) : Prop := forall b k l g, c_body c = b ++ [(k, IWs l g)] -> exists x, pre = x ++ l.
Lemma void_added c r i pre st : grows c r -> void_item i -> wsend c pre -> p_pre st = pre ++ item_string i -> exists c', grows c' r /\ wsend c' (p_pre st) /\ (nlines [] (c_body c) r -> nline (None, i) None -> nlines [] (c_body c') r) /\
  match merge_ws i c st with Some c1 => c1 = c' | None => forall sf, table_raw_append sf c None i = Ok c' /\ cappend sf c None i = Ok c' end.
Proof.
  intros Hs Hi Hw Hp. destruct (merge_ws i c st) as [c1|] eqn:E.
  - exists c1. assert (X : exists s f b k l g, i = IWs s f /\ c_body c = b ++ [(k, IWs l g)] /\ c_body c1 = b ++ [(k, IWs (l ++ s) false)]).
    { destruct c as [body m p tks d]. unfold merge_ws in E. destruct i as [s f| | | | | | | ]; try discriminate. destruct (rev body) as [|[k x] rb] eqn:Er; [discriminate|]. destruct x as [l g| | | | | | | ]; try discriminate. inversion E; subst.
      assert (Eb : body = rev rb ++ [(k, IWs l g)]) by (rewrite <- (rev_involutive body), Er; reflexivity). destruct (Hw _ _ _ _ Eb) as [x ->]. exists s, f, (rev rb), k, l, g. split; [reflexivity|]. split; [exact Eb|]. cbn [c_body]. replace (skipn (idx st - (List.length l + List.length s)) (p_pre st)) with (l ++ s); [reflexivity|]. symmetry.
      unfold idx. rewrite Hp. cbn [item_string]. rewrite !app_length. replace (List.length x + List.length l + List.length s - (List.length l + List.length s)) with (List.length x) by lia. rewrite <- app_assoc. apply skipn_length_app. }
    destruct X as (s0 & f0 & b0 & k0 & l0 & g0 & Ei & Eb0 & Eb1). split; [|split; [|split; [|reflexivity]]].
    + destruct c as [body m p tks d]. unfold merge_ws in E. destruct i as [s f| | | | | | | ]; try discriminate. destruct (rev body) as [|[k x] rb] eqn:Er; [discriminate|]. destruct x as [l g| | | | | | | ]; try discriminate. inversion E; subst.
      assert (Eb : body = rev rb ++ [(k, IWs l g)]) by (rewrite <- (rev_involutive body), Er; reflexivity). rewrite Eb in Hs. eapply grows_alike; [|exact Hs].
      apply Forall2_app; [apply alike_refls|]. constructor; [apply alike_ws; reflexivity|constructor].
    + intros b k l g Eb. rewrite Eb1 in Eb. apply app_inj_tail in Eb as [<- Eb]. injection Eb as <- <- _. destruct (Hw _ _ _ _ Eb0) as [x Ex]. exists x. rewrite Hp, Ei, Ex, <- app_assoc. reflexivity.
    + intros Hl Hn. rewrite Eb1. rewrite Eb0 in Hl. subst i. apply nlines_cut in Hl as (l1 & H1 & H2). eapply nlines_app; [exact H1|].
      inversion H2 as [|? ? ? ? H3 H4|? names v ? ? la ? H3 P H4]; subst.
      * inversion H3 as [i Vi Vo Lc| |]; subst. inversion Hn as [i2 Vi2 Vo2 Lc2| |]; subst. eapply ns_void; [|exact H4]. apply nl_void; [exact I| |exact I]. cbn [item_string] in *. apply voids_app; assumption.
      * inversion H3; subst. contradiction.
  - exists (add_void c i). split; [apply grows_void, Hs|]. split.
    { intros b k l g Eb. destruct c as [body m p tks d]. cbn [add_void c_body] in Eb. apply app_inj_tail in Eb as [_ Eb]. injection Eb as _ ->. exists pre. exact Hp. }
    split.
    + intros Hl Hn. destruct c as [body m p tks d]. cbn [add_void c_body] in *. eapply nlines_app; [exact Hl|]. eapply ns_void; [exact Hn|constructor].
    + intros sf. unfold table_raw_append, cappend. destruct (app_fuel_pos c None i) as [q ->]. rewrite !append_void by exact Hi. split; reflexivity.
Qed.
(** * Lines below a header *)
Lemma lines_table z l u l2 : pair_lines z l u l2 -> forall sf K stk c pre mk, calm sf (u ++ z) -> grows c l -> wsend c pre ->
  exists c' mk1, grows c' l2 /\ (fin z u -> nlines [] (c_body c) l -> nlines [] (c_body c') l2) /\ forall n cR st', table_loop sf n K stk c' (mkSt (pre ++ u) z mk1) = (Ok cR, st') -> exists n', table_loop sf n' K stk c (mkSt pre (u ++ z) mk) = (Ok cR, st').
Proof.
  induction 1 as [l|t w l l2 Ht H IH|a k names s v x t w l y1 l2 Ha Hk Hse Hd Hp Ht H IH]; intros sf K stk c pre mk Q Hs Hws.
  - exists c, mk. rewrite app_nil_r. split; [exact Hs|]. split; [auto|]. cbn [app]. eauto.
  - destruct t as [|t0 t1].
    { cbn [app]. destruct (IH sf K stk c pre mk Q Hs Hws) as (c' & mk1 & Hs' & X). exists c', mk1. auto. }
    destruct (item_void (w ++ z) (t0 :: t1) pre mk Ht ltac:(discriminate)) as (i & mk1 & Hi & Es & Lc & E).
    destruct (void_added c l i pre (mkSt (pre ++ t0 :: t1) (w ++ z) mk1) Hs Hi Hws (eq_sym (f_equal (app pre) Es))) as (c1 & Hs1 & Hw1 & Nl & A).
    rewrite <- app_assoc in Q. apply calm_app in Q. destruct (IH sf K stk c1 (pre ++ t0 :: t1) mk1 Q Hs1 Hw1) as (c' & mk2 & Hs' & Nl' & X). exists c', mk2. split; [exact Hs'|].
    split. { intros Fn Hl. apply Nl'; [eapply fin_right, Fn|]. apply Nl; [exact Hl|]. eapply void_line; [exact Hi|exact Es|exact Lc|]. eapply void_eol; [exact Ht|discriminate|apply fin_left, Fn]. } intros n cR st' En. rewrite app_assoc in En. destruct (X n cR st' En) as [n' En'].
    exists (S n'). rewrite <- app_assoc. cbn [table_loop]. unfold bind at 1, endM, at_end. cbn [p_rest app]. unfold bind at 1. change (t0 :: t1 ++ w ++ z) with ((t0 :: t1) ++ w ++ z). rewrite E. unfold bind at 1, get.
    destruct (merge_ws i c _) as [c2|]; [subst c2; exact En'|]. destruct (A sf) as [A' _]. unfold bind at 1, table_append_m, lift. rewrite A'. exact En'.
  - rewrite <- app_assoc in Q. pose proof Q as Q1. apply calm_app in Q1. destruct (item_pair sf (w ++ z) a k names s v x t pre mk Ha Hk Hse Hd Ht Q) as (m & KK & it & mk1 & Hsh & P & U & En0 & Nn & E).
    destruct (pair_added c l KK it x y1 Hs Hsh P U) as (c1 & Ac & Ar & Hs1 & Eb1); [rewrite En0; exact Hp|]. assert (Hw1 : wsend c1 (pre ++ a ++ k ++ s ++ v ++ t)). { intros b0 k0 l0 g0 Eb0. rewrite Eb1 in Eb0. apply app_inj_tail in Eb0 as [_ Eb0]. exfalso. revert Eb0. clear -P. destruct KK as [sk|[|x0 [|x1 ks]] s0 o0]; cbn [norm_entry]; intros Eb0; injection Eb0 as _ Eb0; destruct it; try destruct P; discriminate. }
    set (line := a ++ k ++ s ++ v ++ t) in *.
    destruct (IH sf K stk c1 (pre ++ line) mk1 Q1 Hs1 Hw1) as (c' & mk2 & Hs' & Nl' & X).
    exists c', mk2. split; [exact Hs'|]. split. { intros Fn Hl. apply Nl'; [eapply fin_right, Fn|]. rewrite Eb1. eapply nlines_app; [exact Hl|]. eapply ns_pair; [apply Nn, fin_left, Fn|exact Hp|constructor]. } intros n cR st' En. rewrite app_assoc in En. destruct (X n cR st' En) as [n' En'].
    exists (S (m + n')). rewrite <- app_assoc. cbn [table_loop]. unfold bind at 1, endM, at_end. cbn [p_rest].
    replace (match line ++ w ++ z with [] => true | _ :: _ => false end) with false.
    2: { subst line. destruct (key_lead k names Hk) as (a' & k' & -> & _ & _ & Hh). destruct k'; [destruct Hh|]. destruct a, a'; reflexivity. }
    unfold bind at 1. rewrite E by lia. unfold bind at 1, get. rewrite (plain_kind it P). unfold bind at 1, table_append_m, lift. rewrite Ar.
    apply (tloop_up n' (m + n')) in En'; [|lia]. exact En'.
Qed.
(** * Lines at the top of a document *)
Definition body_gets (sf : bool) (c : container) (st : pst) (c' : container) (st' : pst) : Prop := exists n, body_loop sf n c st = (Ok c', st').
Lemma lines_body z l u l2 : pair_lines z l u l2 -> forall sf c pre mk, calm sf (u ++ z) -> grows c l -> wsend c pre -> mk = List.length pre ->
  exists c' mk1, grows c' l2 /\ mk1 = List.length (pre ++ u) /\ (fin z u -> nlines [] (c_body c) l -> nlines [] (c_body c') l2) /\ forall cR st', body_gets sf c' (mkSt (pre ++ u) z mk1) cR st' -> body_gets sf c (mkSt pre (u ++ z) mk) cR st'.
Proof.
  induction 1 as [l|t w l l2 Ht H IH|a k names s v x t w l y1 l2 Ha Hk Hse Hd Hp Ht H IH]; intros sf c pre mk Q Hs Hws Hm.
  - exists c, mk. rewrite app_nil_r. split; [exact Hs|]. split; [exact Hm|]. split; [auto|]. cbn [app]. eauto.
  - destruct t as [|t0 t1].
    { cbn [app]. destruct (IH sf c pre mk Q Hs Hws Hm) as (c' & mk1 & Hs' & X). exists c', mk1. auto. }
    destruct (item_void (w ++ z) (t0 :: t1) pre mk Ht ltac:(discriminate)) as (i & mk1 & Hi & Es & Lc & E).
    destruct (void_added c l i pre (mkSt (pre ++ t0 :: t1) (w ++ z) mk1) Hs Hi Hws (eq_sym (f_equal (app pre) Es))) as (c1 & Hs1 & Hw1 & Nl & A).
    rewrite <- app_assoc in Q. apply calm_app in Q. destruct (IH sf c1 (pre ++ t0 :: t1) (List.length (pre ++ t0 :: t1)) Q Hs1 Hw1 eq_refl) as (c' & mk2 & Hs' & Hm' & Nl' & X). exists c', mk2. split; [exact Hs'|]. split; [rewrite Hm', <- app_assoc; reflexivity|].
    split. { intros Fn Hl. apply Nl'; [eapply fin_right, Fn|]. apply Nl; [exact Hl|]. eapply void_line; [exact Hi|exact Es|exact Lc|]. eapply void_eol; [exact Ht|discriminate|apply fin_left, Fn]. } intros cR st' En. rewrite app_assoc in En. destruct (X cR st' En) as [n' En'].
    exists (S n'). rewrite <- app_assoc. cbn [body_loop]. unfold bind at 1, endM, at_end. cbn [p_rest app]. unfold bind at 1, current, cur. cbn [p_rest].
    assert (Eb : (t0 =? chLBR)%N = false).
    { destruct Ht as (b & c0 & e & Et & Hb & Hc & He). destruct b as [|b0 b]; cbn [app] in Et; [|inversion Et; subst; inversion Hb as [|? ? [->| ->] _]; reflexivity].
      destruct Hc as [->|(q & -> & _)]; [|inversion Et; reflexivity]. destruct He as [->|[->|[-> _]]]; inversion Et; reflexivity. }
    rewrite Eb. cbn [orb]. unfold bind at 1. change (t0 :: t1 ++ w ++ z) with ((t0 :: t1) ++ w ++ z). rewrite E. unfold bind at 1, get.
    destruct (merge_ws i c _) as [c2|]; [subst c2; unfold bind at 1, mark, set_mark; cbn [p_pre p_rest]; exact En'|]. destruct (A sf) as [_ A']. rewrite A'. unfold bind at 1. cbn [wrap_append]. unfold ret. unfold bind at 1, mark, set_mark. cbn [p_pre p_rest]. exact En'.
  - rewrite <- app_assoc in Q. pose proof Q as Q1. apply calm_app in Q1. destruct (item_pair sf (w ++ z) a k names s v x t pre mk Ha Hk Hse Hd Ht Q) as (m & KK & it & mk1 & Hsh & P & U & En0 & Nn & E).
    destruct (pair_added c l KK it x y1 Hs Hsh P U) as (c1 & Ac & Ar & Hs1 & Eb1); [rewrite En0; exact Hp|]. assert (Hw1 : wsend c1 (pre ++ a ++ k ++ s ++ v ++ t)). { intros b0 k0 l0 g0 Eb0. rewrite Eb1 in Eb0. apply app_inj_tail in Eb0 as [_ Eb0]. exfalso. revert Eb0. clear -P. destruct KK as [sk|[|x0 [|x1 ks]] s0 o0]; cbn [norm_entry]; intros Eb0; injection Eb0 as _ Eb0; destruct it; try destruct P; discriminate. }
    assert (Hl : exists y0 y1, a ++ k ++ s ++ v ++ t = y0 :: y1 /\ (y0 =? chLBR)%N = false).
    { destruct (key_lead k names Hk) as (a' & k' & -> & Ha' & Hk' & Hh). destruct k' as [|k0 k']; [destruct Hh|]. destruct (key_head_facts _ _ _ eq_refl Hh (ex_intro _ _ Hk')) as (_ & _ & _ & F4).
      destruct a as [|a0 a]; [destruct a' as [|a0 a']|]; cbn [app]; eexists _, _; (split; [reflexivity|]); [apply N.eqb_neq; exact F4|inversion Ha' as [|? ? [->| ->] _]; reflexivity|inversion Ha as [|? ? [->| ->] _]; reflexivity]. }
    set (line := a ++ k ++ s ++ v ++ t) in *. destruct Hl as (y0 & y2 & El & Eb).
    destruct (IH sf c1 (pre ++ line) (List.length (pre ++ line)) Q1 Hs1 Hw1 eq_refl) as (c' & mk2 & Hs' & Hm' & Nl' & X).
    exists c', mk2. split; [exact Hs'|]. split; [rewrite Hm', <- app_assoc; reflexivity|]. split. { intros Fn Hl. apply Nl'; [eapply fin_right, Fn|]. rewrite Eb1. eapply nlines_app; [exact Hl|]. eapply ns_pair; [apply Nn, fin_left, Fn|exact Hp|constructor]. } intros cR st' En. rewrite app_assoc in En. destruct (X cR st' En) as [n' En'].
    exists (S (m + n')). rewrite <- app_assoc. cbn [body_loop]. unfold bind at 1, endM, at_end. cbn [p_rest]. unfold bind at 1, current, cur. cbn [p_rest].
    replace (match line ++ w ++ z with [] => true | _ :: _ => false end) with false by (rewrite El; reflexivity).
    replace (match line ++ w ++ z with [] => chNUL | c0 :: _ => c0 end) with y0 by (rewrite El; reflexivity). rewrite Eb. cbn [orb].
    unfold bind at 1. rewrite E by lia. unfold bind at 1, get. rewrite (plain_kind it P). rewrite Ac.
    replace (if key_is_multi KK then None else None) with (@None container) by (destruct (key_is_multi KK); reflexivity). unfold bind at 1. cbn [wrap_append]. unfold ret. unfold bind at 1, mark, set_mark. cbn [p_pre p_rest].
    apply (body_up n' (m + n')) in En'; [|lia]. exact En'.
Qed.
