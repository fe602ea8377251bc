(** NoLossDoc: the strict parser makes no report on documents of an ordinary shape (C01). *)
From Verif Require Import Base Source Utils Items Container Arrays Parser Lemmas Escape Strings StringRT StringApi Numbers Reader Linecol Wf Errors Text TextParse Keys.
From Verif Require GramSound Mono FuelParse.
From Verif Require Import NoLoss NoLossVal Ordinary.
From Coq Require Import ZifyBool ZifyNat ZifyN.
Open Scope nat_scope.

(** * Containers *)
Lemma merge_flat i c st c' : flat_c c -> merge_ws i c st = Some c' -> flat_c c'.
Proof.
  intros (F & [L1 L2] & P) H. destruct c as [body m p tks d]. cbn in F, L1, L2, P. subst p. unfold merge_ws in H. destruct i; try discriminate.
  destruct (rev body) as [|[k [l f| | | | | | | ]] r] eqn:E; try discriminate. injection H as <-.
  assert (Eb : body = rev r ++ [(k, IWs l f)]) by (rewrite <- (rev_involutive body), E; reflexivity). subst body. clear E.
  match goal with |- flat_c (Cont (_ ++ [(_, ?x)]) _ _ _ _) => set (y := x) end.
  assert (N : forall (a b : item), forall j k0 it, nth_error (rev r ++ [(k, a)]) j = Some (Some k0, it) -> exists it', nth_error (rev r ++ [(k, b)]) j = Some (Some k0, it')).
  { intros a b j k0 it H. destruct (Nat.lt_ge_cases j (List.length (rev r))) as [L|L]; [rewrite nth_error_app1 in * by exact L; eauto|].
    rewrite nth_error_app2 in * by exact L. destruct (j - List.length (rev r)) as [|[|]]; cbn in *; try discriminate. injection H as -> _. eauto. }
  split; [|split; [split|reflexivity]]; cbn [c_body c_map].
  - apply Forall_app in F as [F1 F2]. apply Forall_app. split; [exact F1|]. constructor; [|constructor]. unfold y. destruct k; exact I.
  - intros j k0 it H. destruct (N _ (IWs l f) _ _ _ H) as [it' H']. eauto.
  - intros n ci H. destruct (L2 n ci H) as (k0 & it & H1 & H2). destruct (N _ y _ _ _ H1) as [it' H']. eauto.
Qed.
Lemma proxy_nl n c l : nlr (proxy n c l). Proof. apply (quiet_all n). Qed.
Lemma okc_raw (Q : container -> Prop) c k it : okc Q (append (app_fuel c k it) Own true c k it false) -> okc Q (table_raw_append true c k it).
Proof.
  unfold table_raw_append. intros H. destruct (append _ _ _ _ _ _ _) as [c'|e]; [|exact H]. cbn [rbind okc] in *.
  destruct (option_map _ k) as [ks|]; [|exact H]. destruct (map_get ks (c_map c')) as [[i|l]|]; [exact H| |exact I].
  apply okc_bind; [apply proxy_nl|]. intros _ _. exact H.
Qed.
Lemma raw_pair c k it : flat_c c -> key_fine k -> isval it -> okc flat_c (table_raw_append true c k it).
Proof. intros. apply okc_raw, append_pair; assumption. Qed.
(** Keys of headers. *)
Definition hk (k : key) : Prop := match k with KSingle k => hkey k | KDotted ks _ _ => 2 <= List.length ks /\ Forall hkey ks end.
Lemma hk_parts k : hk k -> Forall hkey (key_parts k) /\ 1 <= List.length (key_parts k).
Proof. destruct k; cbn; [|intros [H1 H2]; split; [exact H2|lia]]. intros H. split; [constructor; [exact H|constructor]|lia]. Qed.
Lemma append_hk n v c k i : nice c -> hk k -> nice_i i -> okc nice (append n Own true c (Some k) i v).
Proof.
  intros Hc Hk Hi. destruct i as [| | | | | |ic im|]; try (exfalso; inversion Hi; fail). destruct k as [k|ks sep o].
  - pose proof (proj1 (hdr_all n) v c k ic im Hc Hk Hi) as H. destruct (append _ _ _ _ _ _ _); [apply H|exact H].
  - destruct n; [exact I|]. destruct ks as [|a [|b ks]]; try (exfalso; cbn in Hk; lia). exact I.
Qed.
Lemma okc_lift (V : container -> Prop) s r P : okc V r -> qt s (lift r) P (fun a st => V a /\ P st).
Proof. intros H. apply qt_lift. destruct r; exact H. Qed.
Lemma okc_wrap (V : container -> Prop) s r P : okc V r -> qt s (wrap_append r) P (fun a st => V a /\ P st).
Proof. intros H. destruct r as [c|e]; cbn [wrap_append]; [apply qt_ret; auto|]. destruct e; try apply qt_raise; apply qt_raise_exn; exact H. Qed.
Lemma single_nice k ic im : hkey k -> nice_i (ITable ic im) -> nice (singleton k (ITable ic im)).
Proof.
  intros Hk Hi. unfold singleton. cbn [is_table]. change [(Some k, ITable ic im)] with (([] : body_t) ++ [(Some k, ITable ic im)]).
  assert (Hh : hdr (Some k, ITable ic im)) by (exists k, ic, im; auto). constructor; [constructor|constructor; [exact Hh|constructor]|constructor; [exact Hi|constructor]|reflexivity|]. split.
  - intros [|[|i]] k0 it H; cbn in H; try discriminate. injection H as <- _. exists (One 0). cbn. rewrite str_eqb_refl. split; [reflexivity|cbn; lia].
  - intros n ci H. cbn in H. destruct (str_eqb_spec n (k_key k)) as [->|]; [|discriminate]. injection H as <-. exists k, (ITable ic im). split; reflexivity.
Qed.
Lemma single_hdr k ic im : hkey k -> Forall hdr (c_body (singleton k (ITable ic im))).
Proof. intros H. constructor; [|constructor]. exists k, ic, im. auto. Qed.
Lemma nest_nice t c m rest : forall parent, rest <> [] -> Forall hkey rest -> nice_i (ITable c m) -> first_spaces (tr_indent t) = None ->
  nice (nest t rest parent c m false) /\ Forall hdr (c_body (nest t rest parent c m false)).
Proof.
  induction rest as [|x rest IH]; intros parent Hn Hk Hi Ht; [congruence|]. inversion Hk as [|? ? Hx Hr]; subst. cbn [nest]. destruct rest as [|y rest].
  - cbn [leaf_item]. split; [apply single_nice; assumption|apply single_hdr; exact Hx].
  - destruct (IH (k_key x)) as [I1 I2]; [discriminate|exact Hr|exact Hi|exact Ht|].
    assert (N : nice_i (mk_table (nest t (y :: rest) (k_key x) c m false) t false true (Some (k_key x)) None)).
    { unfold mk_table. constructor; [exact Ht|reflexivity|intros _; exact I2|discriminate|exact I1]. }
    unfold mk_table in *. split; [apply single_nice; assumption|apply single_hdr; exact Hx].
Qed.
(** * The key of a header *)
Definition nameo (c : char) : Prop := is_bare_key_char c = true \/ c = chDOT.
Notation barec := (fun c => is_bare_key_char c = true).
Lemma bare_take (u v : str) : Forall barec u -> match v with [] => True | c :: _ => is_bare_key_char c = false /\ is_spaces c = false end ->
  take_while (fun c => is_bare_key_char c || is_spaces c)%bool (u ++ v) = u /\ drop_while (fun c => is_bare_key_char c || is_spaces c)%bool (u ++ v) = v.
Proof.
  intros F Hv. induction u as [|c u IH]; cbn [app].
  - destruct v as [|c v]; [split; reflexivity|]. destruct Hv as [H1 H2]. cbn [take_while drop_while]. rewrite H1, H2. split; reflexivity.
  - inversion F as [|? ? Fc Fu]; subst. cbn [take_while drop_while]. rewrite Fc. cbn [orb]. destruct (IH Fu) as [-> ->]. split; reflexivity.
Qed.
Lemma bare_split h : Forall nameo h -> exists u v, h = u ++ v /\ Forall barec u /\ (v = [] \/ exists v', v = chDOT :: v').
Proof.
  intros F. induction h as [|c h IH]; [exists [], []; auto|]. inversion F as [|? ? Fc Fh]; subst. destruct Fc as [Fc| ->].
  - destruct (IH Fh) as (u & v & -> & H1 & H2). exists (c :: u), v. split; [reflexivity|]. split; [constructor; assumption|exact H2].
  - exists [], (chDOT :: h). split; [reflexivity|]. split; [constructor|right; eauto].
Qed.
Lemma key_bare n : forall st k st' h b, parse_key n st = (Ok k, st') -> p_rest st = h ++ chRBR :: b -> Forall nameo h -> hk k.
Proof.
  induction n as [|n IH]; intros st k st' h b H Er Fh; [discriminate|]. destruct (bare_split h Fh) as (u & v & -> & Fu & Hv). rewrite <- app_assoc in Er. cbn [parse_key] in H. bix H. bix H.
  assert (Hd : exists d r, u ++ v ++ chRBR :: b = d :: r /\ is_spaces d = false /\ is_quote d = false).
  { destruct u as [|d u]; cbn [app].
    - destruct Hv as [->|[v' ->]]; cbn [app]; eexists; eexists; split; [reflexivity|split; reflexivity|reflexivity|split; reflexivity].
    - inversion Fu as [|? ? Fd _]; subst. exists d, (u ++ v ++ chRBR :: b). split; [reflexivity|]. destruct (bare_not_space d Fd) as (X1 & _ & _ & X2). auto. }
  destruct Hd as (d & r & Ed & Sd & Qd).
  assert (Ea : adv_while is_spaces (set_mark st) = set_mark st).
  { unfold adv_while. cbn [set_mark p_rest p_pre p_mark]. rewrite Er, Ed. cbn [take_while drop_while]. rewrite Sd, app_nil_r. unfold set_mark. rewrite Er, Ed. reflexivity. }
  rewrite Ea in H. bix H. assert (Ec : cur (set_mark st) = d) by (unfold cur; cbn [set_mark p_rest]; rewrite Er, Ed; reflexivity). rewrite Ec, Qd in H.
  bi H k1 s1 Q. bix Q. bix Q. rewrite GramSound.raw_of in Q by reflexivity. cbn [set_mark p_rest] in Q.
  assert (Tk : take_while (fun c => is_bare_key_char c || is_spaces c)%bool (p_rest st) = u /\ drop_while (fun c => is_bare_key_char c || is_spaces c)%bool (p_rest st) = v ++ chRBR :: b).
  { rewrite Er. apply bare_take; [exact Fu|]. destruct Hv as [->|[v' ->]]; cbn [app]; split; reflexivity. }
  destruct Tk as [Tk Dk]. cbv zeta in Q. rewrite Tk in Q.
  assert (Es : u <> [] -> strip u = u). { intros Hu. rewrite <- (app_nil_r u) at 1. apply strip_bare; [exact Fu|exact Hu|]. constructor. }
  destruct u as [|u0 u]; [discriminate Q|]. rewrite Es in Q by discriminate. destruct (inb chSP (u0 :: u)); [discriminate|]. injection Q as <- <-. bix H.
  assert (H1 : hkey (mkSKey (u0 :: u) KTBare [] (u0 :: u) false)) by (split; reflexivity). unfold cur in H. cbn [adv_while p_rest set_mark] in H. rewrite Dk in H.
  destruct Hv as [->|[v' ->]]; cbn [app] in *.
  - change (chRBR =? chDOT)%N with false in H. injection H as <- _. exact H1.
  - change (chDOT =? chDOT)%N with true in H. cbv iota in H. bi H bb s2 Q. unfold incM, inc in Q. cbn [adv_while p_rest set_mark] in Q. rewrite Dk in Q. injection Q as _ <-. bi H k2 s3 Q. injection H as <- _.
    apply IH with (h := v') (b := b) in Q; [|reflexivity|].
    + destruct (hk_parts k2 Q) as [P1 P2]. cbn. split; [lia|]. constructor; [exact H1|exact P1].
    + change (u0 :: u ++ chDOT :: v') with ((u0 :: u) ++ chDOT :: v') in Fh. apply Forall_app in Fh as [_ Fh]. inversion Fh; assumption.
Qed.
(** * Line ends *)
Lemma trail_end st t st' : p_mark st <= idx st -> (match p_rest st with [] => True | c :: _ => is_nl c = true end) -> parse_trail st = (Ok t, st') ->
  inb chLF t = true \/ p_rest st' = [] \/ exists a b, src st = a ++ chCR :: b /\ match b with c :: _ => c <> chLF | [] => True end.
Proof.
  intros Hm H E. unfold parse_trail in E. bix E.
  assert (Ea : adv_while is_spaces st = st).
  { destruct st as [pre [|c r] mk]; unfold adv_while; cbn [p_pre p_rest p_mark take_while drop_while]; [rewrite app_nil_r; reflexivity|].
    cbn [p_rest] in H. assert (X : is_spaces c = false) by (unfold is_spaces; unfold is_nl in H; apply orb_true_iff in H as [H|H];
      apply N.eqb_eq in H; subst; reflexivity). rewrite X, app_nil_r. reflexivity. }
  rewrite Ea in E. clear Ea. destruct st as [pre rest mk]. unfold idx in Hm. cbn [p_pre p_rest p_mark] in *.
  assert (Lf : forall x, inb chLF (skipn mk ((pre ++ x) ++ [chLF])) = true).
  { intros x. rewrite skipn_app, inb_app. replace (mk - List.length (pre ++ x)) with 0 by (rewrite app_length; lia). cbn [skipn]. rewrite orb_true_intro; [reflexivity|right; reflexivity]. }
  destruct rest as [|c r]; [right; left; cbn in E; injection E as _ <-; reflexivity|].
  bix E. unfold cur in E. cbn [p_rest] in E. destruct (N.eqb_spec c chCR) as [->|Hc].
  - bi E b0 s1 Q. unfold incM, inc in Q. cbn [p_rest p_pre p_mark] in Q. injection Q as _ <-. bix E. unfold cur in E. cbn [p_rest] in E. destruct r as [|d r].
    + right; left. change (chNUL =? chLF)%N with false in E. cbn in E. injection E as _ <-. reflexivity.
    + destruct (N.eqb_spec d chLF) as [->|Hd].
      * bi E b1 s1 Q. unfold incM, inc in Q. cbn [p_rest p_pre p_mark] in Q. injection Q as _ <-. left. injection E as <- _. unfold extract. cbn [p_pre p_mark]. apply Lf.
      * right. right. exists pre, (d :: r). split; [reflexivity|exact Hd].
  - assert (c = chLF) as ->. { unfold is_nl in H. destruct (N.eqb_spec c chLF); [assumption|]. destruct (N.eqb_spec c chCR); [contradiction|discriminate]. }
    bi E b1 s1 Q. injection Q as _ <-. bix E. unfold cur in E. cbn [p_rest] in E. change (chLF =? chLF)%N with true in E. cbv iota in E. bi E b2 s1 Q. unfold incM, inc in Q. cbn [p_rest p_pre p_mark] in Q. injection Q as _ <-. left. injection E as <- _. unfold extract. cbn [p_pre p_mark].
    specialize (Lf []). rewrite app_nil_r in Lf. exact Lf.
Qed.
Lemma comment_trail_end st cws cm t st' : parse_comment_trail true st = (Ok (cws, cm, t), st') ->
  inb chLF t = true \/ p_rest st' = [] \/ exists a b, src st = a ++ chCR :: b /\ match b with c :: _ => c <> chLF | [] => True end.
Proof.
  intros E. unfold parse_comment_trail in E. bix E. destruct (at_end st) eqn:Ee; [injection E as _ _ _ <-; right; left; apply at_end_rest; exact Ee|].
  bix E. bix E. bix E. bix E. bi E cc s1 Q. destruct cc as [cws0 cm0]. bi E t0 s2 Q2. injection E as _ _ -> <-.
  assert (X : p_mark s1 <= idx s1 /\ src s1 = src st /\ match p_rest s1 with [] => True | c :: _ => is_nl c = true end).
  { set (s0 := adv_while is_blank (set_mark st)) in *. assert (S0 : src s0 = src st) by (unfold s0; rewrite adv_src; reflexivity).
    assert (M0 : p_mark s0 <= idx s0) by (unfold s0, idx; cbn; rewrite app_length; lia). clearbody s0.
    destruct (at_end s0 || (cur s0 =? chLF)%N)%bool eqn:Ea.
    - injection Q as _ _ <-. split; [exact M0|]. split; [exact S0|]. unfold at_end, cur in Ea. destruct (p_rest s0); [exact I|]. cbn [orb] in Ea. unfold is_nl. rewrite Ea. reflexivity.
    - destruct (cur s0 =? chHASH)%N; [|discriminate]. bix Q. bix Q. bi Q b3 s3 Q3. unfold incM in Q3. pose proof (good_src incM (set_mark s0) good_inc) as G3. unfold incM in G3. destruct (inc (set_mark s0)) as [b4 s4]. injection Q3 as _ <-. cbn [snd] in G3.
      bix Q. bix Q. bix Q. bi Q u s5 Q5. destruct (at_end _ || _)%bool eqn:Eb in Q5; [|discriminate]. injection Q5 as _ <-. bix Q. bix Q. injection Q as _ _ <-. cbn [set_mark p_mark idx p_pre p_rest].
      split; [apply Nat.le_refl|]. split; [|].
      + change (src (set_mark (adv_while (fun c => negb (is_nl c) && negb (bad_comment_char c))%bool s4))) with (src (adv_while (fun c => negb (is_nl c) && negb (bad_comment_char c))%bool s4)). rewrite adv_src, G3. exact S0.
      + unfold at_end, cur in Eb. destruct (p_rest _); [exact I|exact Eb]. }
  destruct X as (X1 & X2 & X3). destruct (trail_end s1 t s2 X1 X3 Q2) as [T|[T|T]]; auto. rewrite X2 in T. auto.
Qed.

(** * Documents *)
Section Doc.
Variable s : str.
Hypothesis Ho : ordinary s.
Notation qt := (qt s).
Notation F0 := (fun H : false = true => match Bool.diff_false_true H with end).
Lemma qt_end {B} (f : bool -> M B) (P : pst -> Prop) Q : qt (f true) (fun st => P st /\ at_end st = true) Q -> qt (f false) (fun st => P st /\ at_end st = false) Q -> qt (bind endM f) P Q.
Proof. intros H1 H2 st Hs Hp. unfold bind, endM. destruct (at_end st) eqn:E; [apply H1|apply H2]; auto. Qed.
Lemma qt_cur {B} (f : char -> M B) (P : pst -> Prop) Q : (forall c, qt (f c) (fun st => P st /\ cur st = c) Q) -> qt (bind current f) P Q.
Proof. intros H st Hs Hp. unfold bind, current. apply H; auto. Qed.
Lemma qt_get {B} (f : pst -> M B) (P : pst -> Prop) Q : (forall x, qt (f x) (fun st => P st /\ st = x) Q) -> qt (bind get f) P Q.
Proof. intros H st Hs Hp. unfold bind, get. apply H; auto. Qed.
Lemma qt_quiet {A} (m : M A) (P : pst -> Prop) V : vtri s false false false false m V -> qt m P (fun a _ => V a).
Proof. intros H. apply qv_pre, qt_of, H. Qed.
Lemma qt_still {A} (m : M A) (P : pst -> Prop) V : (forall st, snd (m st) = st) -> vtri s false false false false m V -> qt m P (fun a st => V a /\ P st).
Proof.
  intros E H st Hs Hp. specialize (H st Hs I). specialize (E st). destruct (m st) as [[a|e] st1]; cbn [snd] in E; [|apply perr_nl in H; exact H]. subst. auto.
Qed.
Lemma qt_pure {A} (m : M A) (X : Prop) (P : pst -> Prop) Q : (X -> qt m P Q) -> qt m (fun st => X /\ P st) Q.
Proof. intros H st Hs [Hx Hp]. apply H; auto. Qed.
Lemma qt_peek n (P : pst -> Prop) : qt (peek_table n) P (fun r st => True /\ P st).
Proof.
  apply (qt_still (peek_table n) P (fun _ => True)); [intros st; apply (proj1 (proj2 (peeks_still st)) n)|eapply vt_true, (vt_peek_table s false false false false F0 F0 F0)].
Qed.
Lemma qt_item2 n : qt (parse_item true n) bol (fun r st => item_ok r /\ item_post r st).
Proof.
  intros st Hs Hb. pose proof (qt_item s (or_date s Ho) (or_brace s Ho) (or_comma s Ho) n (fun _ => True) st Hs I) as H. pose proof (item_line true n st) as K.
  destruct (parse_item true n st) as [[r|e] st1]; [|exact H]. split; [exact H|]. apply K; auto.
Qed.
Definition tab_post (r : key * item) (st : pst) : Prop := (hk (fst r) /\ nice_i (snd r)) /\ nextp st.
Definition quiet_tabs n :=
  (forall p t k, qt (parse_table true n p t k) header_pos tab_post)
  /\ (forall f k c, flat_c c -> qt (table_loop true n f k c) lineend (fun c' st => nice c' /\ nextp st))
  /\ (forall f k c, nice c -> qt (siblings true n f k c) nextp (fun c' st => nice c' /\ nextp st)).
Lemma loop_at_end n f k c st r st' : at_end st = true -> table_loop true n f k c st = (Ok r, st') -> r = c.
Proof.
  intros H E. destruct n; [discriminate|]. cbn [table_loop] in E. unfold bind at 1, endM in E. rewrite H in E. injection E as <- _. reflexivity.
Qed.
Lemma hk_set_sep x k : hk k -> hk (key_set_sep x k).
Proof. destruct k; cbn; auto. Qed.
Lemma header_key n st k st' pre : src st = s -> p_pre st = pre ++ [chLBR] -> (exists a w, pre = a ++ w /\ line_start a /\ blank w) ->
  parse_table_key n st = (Ok k, st') -> cur st' = chRBR -> hk k.
Proof.
  intros Hs Hp (a & w & -> & Ha & Hw) H Hc. unfold parse_table_key in H. destruct (parse_key n st) as [[k0|e] s1] eqn:E; [|destruct e as [[]| | | | | | | | | | | | | |]; discriminate H]. injection H as -> ->.
  destruct (good_parse_key n st) as [x Hx]. rewrite E in Hx. cbn [snd] in Hx. destruct Hx as [Hr _].
  assert (In chRBR (p_rest st)). { rewrite Hr. unfold cur in Hc. destruct (p_rest st') as [|d r]; [discriminate|]. subst d. apply in_or_app. right. left. reflexivity. }
  assert (Sp : exists h b, p_rest st = h ++ chRBR :: b /\ ~ In chRBR h).
  { clear -H. induction (p_rest st) as [|c r IH]; [contradiction|]. destruct (N.eq_dec c chRBR) as [->|N]; [exists [], r; auto|]. destruct H as [H|H]; [congruence|]. destruct (IH H) as (h & b & -> & Hn). exists (c :: h), b. split; [reflexivity|]. intros [X|X]; [congruence|contradiction]. }
  destruct Sp as (h & b & Er & Hn). eapply key_bare; [exact E|exact Er|]. apply (or_bare s Ho a w h b); auto. rewrite <- Hs. unfold src. rewrite Hp, Er. rewrite <- !app_assoc. reflexivity.
Qed.
Lemma quiet_tabs_all n : quiet_tabs n.
Proof.
  induction n as [|n (IH1 & IH2 & IH3)].
  { repeat split; intros; cbn [parse_table table_loop siblings]; apply qt_raise_exn; exact I. }
  pose proof (good_tables n) as (G1 & G2 & G3 & G4 & G5).
  split; [|split].
  - intros p tx k st0 Hs0 Hh0. cbn [parse_table].
    destruct (header_flags s true true (fun _ => or_indent s Ho) (fun _ => or_aot s Ho) st0 Hs0 Hh0) as [F1 F2]. specialize (F1 eq_refl). specialize (F2 eq_refl).
    match goal with |- match ?m st0 with _ => _ end => assert (TT : qt m (fun st => st = st0) tab_post); [|apply TT; auto] end.
    apply qt_cur. intros c. destruct (negb (c =? chLBR)%N) eqn:Ec; [apply qt_raise|].
    apply qt_bind with (Q := fun ind st => ind = extract st0 /\ st = st0); [good|intros st Hs [-> _]; split; reflexivity|].
    intros indent. apply qt_pure. intros Ei.
    apply qt_bind with (Q := fun _ st => p_rest st = tl (p_rest st0) /\ p_pre st = p_pre st0 ++ [chLBR]); [good| |].
    { intros st Hs ->. destruct Hh0 as (a0 & w & r & _ & Hr & _). unfold incM, inc. rewrite Hr. cbn. auto. }
    intros _. apply qt_end; [apply qt_raise|]. apply qt_cur. intros c2.
    apply qt_bind with (Q := fun (b : bool) st => b = false /\ p_pre st = p_pre st0 ++ [chLBR]); [good| |].
    { intros st Hs [[[Hr Hp] He] Hc]. destruct (N.eqb_spec c2 chLBR) as [->|Hn]; [exfalso|cbn; auto].
      destruct Hh0 as (a0 & w & r & _ & Hr0 & _). rewrite Hr0 in *. cbn [tl] in Hr. unfold cur in Hc. rewrite Hr in Hc. destruct r; [discriminate|]. congruence. }
    intros is_aot. apply qt_pure. intros ->.
    apply qt_bind with (Q := fun key st => cur st = chRBR -> hk key); [good| |].
    { intros st Hs Hp. pose proof (qt_quiet _ (fun _ => True) _ (vt_table_key s false false false false F0 F0 F0 n) st Hs I) as H. destruct (parse_table_key n st) as [[ky|e] st'] eqn:E; [|exact H].
      intros Hc. destruct Hh0 as (a0 & w & r & Hpre & _ & Ha & Hw & _). eapply header_key; [exact Hs|exact Hp| |exact E|exact Hc]. exists a0, w. auto. }
    intros key. apply qt_end; [apply qt_raise|]. apply qt_cur. intros c3. destruct (N.eqb_spec c3 chRBR) as [->|]; cbn [negb]; [|apply qt_raise]. cbv zeta.
    destruct (existsb _ _); [apply qt_raise|].
    intros st1 Hs1 [[Hk _] Hc3]. specialize (Hk Hc3).
    match goal with |- match ?m st1 with _ => _ end => assert (TT : qt m (fun _ => True) tab_post); [|apply TT; auto] end.
    clear st1 Hs1 Hc3. cbn [andb].
    apply qt_bind with (Q := fun _ _ => True); [good|apply qt_inc; auto|]. intros _.
    apply qt_cur. intros c4. unfold lossy_if at 1. apply qt_bind with (Q := fun _ _ => True); [good|apply qt_ret; auto|].
    intros _. apply qt_bind with (Q := fun _ _ => True); [good|apply qt_ret; auto|]. intros _.
    apply qt_bind with (Q := fun ct st => lineend st /\ (inb chLF (snd ct) = false -> at_end st = true)); [good| |].
    { intros st Hs _. pose proof (qt_comment s true (fun _ => True) st Hs I) as H. destruct (parse_comment_trail true st) as [[r|e] st'] eqn:E; [|exact H].
      destruct r as [[cws cm] tr]. split; [eapply comment_trail_line; exact E|]. cbn [snd]. intros Hl. apply at_end_rest. apply comment_trail_end in E as [E|[E|(a & b & Ea & Eb)]]; [congruence|exact E|exfalso].
      rewrite Hs in Ea. destruct (or_cr s Ho a b Ea) as [b' ->]. apply Eb. reflexivity. }
    intros [[cws comment] trail]. cbn [snd]. rewrite andb_false_r. unfold lossy_if at 1 2.
    match goal with |- qt _ ?P _ => apply qt_bind with (Q := fun _ => P) end; [good|apply qt_ret; auto|]. intros _.
    match goal with |- qt _ ?P _ => apply qt_bind with (Q := fun _ => P) end; [good|apply qt_ret; auto|]. intros _.
    apply qt_bind with (Q := fun c5 st => (nice c5 /\ (inb chLF trail = false -> c5 = empty_cont true)) /\ nextp st); [good| |].
    { intros st Hs [Hl Ht]. pose proof (IH2 (key_set_sep [] key) k (empty_cont true) flat_empty st Hs Hl) as H. destruct (table_loop true n (key_set_sep [] key) k (empty_cont true) st) as [[c5|e] st'] eqn:E; [|exact H].
      destruct H as [H1 H2]. split; [split; [exact H1|]|exact H2]. intros Hn. eapply loop_at_end; [|exact E]. auto. }
    intros c5. apply qt_pure. intros [Hc5 Hemp].
    apply qt_bind with (Q := fun _ st => True /\ nextp st); [good|apply qt_lift|].
    { unfold validate_all. pose proof (nlr_fold (fun (_ : unit) kv => validate_key (app_fuel c5 None INull) c5 (fst kv)) (c_map c5)) as X. specialize (X (fun _ kv => proj1 (proj2 (proj2 (proj2 (quiet_all _)))) c5 (fst kv)) tt). destruct (fold_res _ _ _); [exact I|exact X]. }
    intros _. apply qt_pure. intros _. apply qt_bind with (Q := fun _ st => nextp st); [good| |].
    { destruct (inb chLF trail) eqn:El; [apply qt_ret; auto|]. rewrite (Hemp eq_refl). apply qt_ret. auto. }
    intros _. assert (Hp : Forall hkey (key_parts (key_set_sep [] key))) by (apply hk_parts, hk_set_sep, Hk).
    assert (Sk : forall j (l : list skey), Forall hkey l -> Forall hkey (skipn j l)). { intros j l Fl. rewrite <- (firstn_skipn j l) in Fl. apply Forall_app in Fl as [_ Fl]. exact Fl. }
    match type of Hp with Forall _ ?l => match goal with |- context [skipn ?j l] => pose proof (Sk j _ Hp) as Hs; destruct (skipn j l) as [|p0 [|p1 rest]] end end.
    + apply qt_ret. intros st Hn. split; [split; [apply hk_set_sep, Hk|]|exact Hn]. cbn [snd]. constructor; [cbn; rewrite Ei; exact F1|reflexivity|intros X; discriminate X|discriminate|exact Hc5].
    + apply qt_ret. intros st Hn. split; [split; [inversion Hs; assumption|]|exact Hn]. cbn [snd]. constructor; [cbn; rewrite Ei; exact F1|reflexivity|intros X; discriminate X|discriminate|exact Hc5].
    + apply qt_ret. intros st Hn. inversion Hs as [|? ? Hp0 Hs']; subst. split; [split; [exact Hp0|]|exact Hn]. cbn [snd].
      match goal with |- nice_i (ITable (nest _ _ _ _ ?m _) _) => assert (Lf : nice_i (ITable c5 m)) by (constructor; [exact F1|reflexivity|intros X; discriminate X|discriminate|exact Hc5]) end.
      match goal with |- nice_i (ITable (nest ?t (p1 :: rest) ?pa _ ?m _) _) => destruct (nest_nice t c5 m (p1 :: rest) pa) as [N1 N2]; [discriminate|exact Hs'|exact Lf|exact F1|] end.
      constructor; [reflexivity|reflexivity|intros _; exact N2|discriminate|exact N1].
  - intros f k c Hc. cbn [table_loop]. apply qt_end; [apply qt_ret; intros st [_ H]; split; [apply flat_nice, Hc|left; exact H]|].
    eapply qt_bind; [good|eapply qt_pre; [|apply qt_item2]|].
    { intros st [[H|H] E]; [congruence|exact H]. }
    intros [[k0 i]|]; apply qt_pure.
    + intros [Hk Hi]. cbn [item_post].
      apply qt_get. intros x. apply qt_pre with (P := lineend); [tauto|]. destruct (merge_ws i c x) as [c'|] eqn:E.
      * apply IH2. eapply merge_flat; eauto.
      * eapply qt_bind; [unfold table_append_m; good|apply (okc_lift flat_c), raw_pair; assumption|].
        intros c'. apply qt_pure. intros Hc'. apply IH2, Hc'.
    + intros _. apply qt_cur. intros ch. destruct (N.eqb_spec ch chLBR); [|apply qt_raise].
      apply qt_pre with (P := header_pos); [intros st [H _]; exact H|].
      eapply qt_bind; [good|apply qt_peek|]. intros [ia pk]. cbn [snd]. apply qt_pure. intros _.
      destruct (is_child f pk).
      * eapply qt_bind; [good|apply IH1|]. intros [kk ii]. apply qt_pure. cbn [fst snd]. intros [Hk Hi].
        eapply qt_bind; [unfold table_append_m; good|apply (okc_lift nice), okc_raw, append_hk; [apply flat_nice, Hc|exact Hk|exact Hi]|].
        intros c'. apply qt_pure. intros Hc'. apply IH3, Hc'.
      * apply qt_ret. intros st H. split; [apply flat_nice, Hc|right; exact H].
  - intros f k c Hc. cbn [siblings]. apply qt_end; [apply qt_ret; intros st [_ H]; split; [exact Hc|left; exact H]|].
    apply qt_pre with (P := header_pos); [intros st [H E]; apply at_end_cases; assumption|].
    eapply qt_bind; [good|apply qt_peek|]. intros [ia pk]. cbn [snd]. apply qt_pure. intros _.
    destruct (is_child f pk).
    + eapply qt_bind; [good|apply IH1|]. intros [kk ii]. apply qt_pure. cbn [fst snd]. intros [Hk Hi].
      eapply qt_bind; [unfold table_append_m; good|apply (okc_lift nice), okc_raw, append_hk; [exact Hc|exact Hk|exact Hi]|].
      intros c'. apply qt_pure. intros Hc'. apply IH3, Hc'.
    + apply qt_ret. intros st H. split; [exact Hc|right; exact H].
Qed.
Lemma body_quiet n : forall c, flat_c c -> qt (body_loop true n c) (fun st => lineend st /\ p_mark st = idx st) (fun c' st => flat_c c' /\ nextp st).
Proof.
  induction n as [|n IH]; intros c Hc; cbn [body_loop]; [apply qt_raise_exn; exact I|].
  intros st0 Hs0 Hp0. unfold bind at 1, endM. unfold bind at 1, current.
  destruct (at_end st0 || (cur st0 =? chLBR)%N)%bool eqn:E.
  { cbn. split; [exact Hc|]. destruct (at_end st0) eqn:Ee; [left; exact Ee|right]. cbn [orb] in E. apply N.eqb_eq in E.
    destruct Hp0 as [[H|H] Hm]; [congruence|]. unfold cur in E. destruct (p_rest st0) as [|d r] eqn:Er; [discriminate|]. subst.
    exists (p_pre st0), [], r. rewrite app_nil_r. repeat split; auto. constructor. }
  assert (B : bol st0) by (destruct Hp0 as [[H|H] _]; [rewrite H in E; discriminate|exact H]).
  match goal with |- match ?m st0 with _ => _ end => assert (TT : qt m bol (fun c' st => flat_c c' /\ nextp st)); [|apply TT; auto] end.
  eapply qt_bind; [good|apply qt_item2|]. intros [[k i]|]; apply qt_pure; [|intros _; apply qt_ret; intros st H; split; [exact Hc|right; exact H]].
  intros [Hk Hi]. cbn [item_post].
  apply qt_get. intros x. apply qt_pre with (P := lineend); [tauto|].
  assert (Mk : forall c', flat_c c' -> qt (mark;;; body_loop true n c') lineend (fun c' st => flat_c c' /\ nextp st)).
  { intros c' Hc'. apply qt_bind with (Q := fun _ st => lineend st /\ p_mark st = idx st); [good| |intros _; apply IH, Hc']. intros st Hs H. cbn. split; [|reflexivity]. exact H. }
  destruct (if match k with Some k => key_is_multi k | None => false end then None else merge_ws i c x) as [c'|] eqn:Em.
  - apply Mk. destruct (match k with Some k => key_is_multi k | None => false end); [discriminate|]. eapply merge_flat; eauto.
  - eapply qt_bind; [good|apply (okc_wrap flat_c); apply append_pair; assumption|].
    intros c'. apply qt_pure. intros Hc'. apply Mk, Hc'.
Qed.
Lemma tables_quiet n : forall c, nice c -> qt (tables_loop true n c) nextp (fun c' st => True).
Proof.
  induction n as [|n IH]; intros c Hc; cbn [tables_loop]; [apply qt_raise_exn; exact I|].
  apply qt_end; [apply qt_ret; auto|]. pose proof (quiet_tabs_all n) as (T1 & _).
  eapply qt_bind; [good|eapply qt_pre; [|apply T1]; intros st [H E]; apply at_end_cases; assumption|].
  intros [k i]. apply qt_pure. cbn [fst snd]. intros [Hk Hi].
  apply qt_bind with (Q := fun v st => nice_i v /\ nextp st); [good| |].
  { destruct i as [| | | | | |tc tm|]; try (apply qt_ret; auto; fail). destruct (nice_i_inv tc tm Hi) as (_ & -> & _). apply qt_ret; auto. }
  intros v. apply qt_pure. intros Hv. eapply qt_bind; [good|apply (okc_wrap nice); apply append_hk; assumption|].
  intros c'. apply qt_pure. intros Hc'. apply IH, Hc'.
Qed.
Theorem ordinary_quiet n : parse_gen true s <> Err (LossyE n).
Proof.
  unfold parse_gen. intros H.
  assert (TT : qt (parse_doc true (parse_fuel s)) (fun st => lineend st /\ p_mark st = idx st) (fun _ _ => True)).
  { unfold parse_doc. eapply qt_bind; [good|apply body_quiet, flat_empty|]. intros c. apply qt_pure. intros Hc. eapply qt_bind; [good|apply tables_quiet, flat_nice, Hc|]. intros c'. apply qt_ret. auto. }
  specialize (TT (start s) eq_refl). destruct (parse_doc true (parse_fuel s) (start s)) as [[c|e0] st]; cbn [fst] in H; [discriminate|].
  injection H as ->. apply TT. split; [right; left; reflexivity|reflexivity].
Qed.
End Doc.
(** A value alone. *)
Lemma value_strict s v : braces_after_eq s -> no_date_space s -> no_blank_comma s -> value_of s = Ok v ->
  exists st', parse_value true (parse_fuel s) (start s) = (Ok v, st') /\ p_rest st' = [].
Proof.
  intros H1 H2 H3 H. unfold value_of in H. destruct (values_quiet s H2 H1 H3 (parse_fuel s)) as (Q & _). specialize (Q (start s) eq_refl I).
  destruct (Mono.mle_value true (parse_fuel s) (parse_fuel s) true false (le_n _) (or_intror (conj eq_refl eq_refl)) (start s)) as [(e & st & E & He)|E].
  - rewrite E in Q. exfalso. destruct e; try (destruct He; fail); [exact Q|]. 
    apply (FuelParse.nf_value true (parse_fuel s) (S (List.length s))) with (st := start s); [unfold parse_fuel; lia|unfold FuelParse.len; cbn; lia|]. rewrite E. reflexivity.
  - unfold bind in H. rewrite E in H. destruct (parse_value true (parse_fuel s) (start s)) as [[v0|e] st]; [|discriminate]. cbn in H. exists st. destruct (at_end st) eqn:Ee; [|discriminate]. injection H as ->. split; [reflexivity|]. apply at_end_rest, Ee.
Qed.
