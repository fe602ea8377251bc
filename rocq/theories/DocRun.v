(** DocRun: the tables of a TOML document (C40). *)
From Verif Require Import Base Source Utils Items Container Arrays Parser Api Lemmas Escape Strings StringRT StringApi Numbers Floats Dates Keys Reader Consist OMap ContOps Wf Fuel FuelParse Mono ListSpec ArrayLemmas ItemInd PyVal PyItem ItemConv Unwrap DumpText DumpCont DumpValue DumpHead DumpChain DumpDoc DumpTop Grammar Meaning Denote Lines Document Spelling CompStr CompNum CompDate CompKey CompValue Ordinary Text Render Neat Ends DocLine DocLoop DocHead DocSpot.
From Coq Require Import ZifyBool ZifyNat ZifyN.
Open Scope nat_scope.

Lemma nodup_right {A} (a b : list A) : NoDup (a ++ b) -> NoDup b.
Proof. induction a as [|x a IH]; [auto|]. cbn [app]. intros H. inversion H; auto. Qed.
(** * What may follow *)
Definition stops (P : list str) (z : str) : Prop := z = [] \/ exists aot Q h z1, z = h ++ z1 /\ header z1 aot Q h /\ forall x, Q <> P ++ x.
Definition stopsb (F : list str) (z : str) : Prop := z = [] \/ exists aot Q h z1, z = h ++ z1 /\ header z1 aot Q h /\ forall x, x <> [] -> Q <> F ++ x.
Definition heads (z : str) : Prop := z = [] \/ exists aot Q h z1, z = h ++ z1 /\ header z1 aot Q h.
Lemma stopsb_stops F k z : stopsb F z -> stops (F ++ [k]) z.
Proof. intros [->|(a & Q & h & z1 & E & H & X)]; [left; reflexivity|]. right. exists a, Q, h, z1. split; [exact E|]. split; [exact H|]. intros x. rewrite <- app_assoc. apply X. discriminate. Qed.
Lemma stops_stopsb P x z : stops P z -> stopsb (P ++ x) z.
Proof. intros [->|(a & Q & h & z1 & E & H & X)]; [left; reflexivity|]. right. exists a, Q, h, z1. split; [exact E|]. split; [exact H|]. intros y _. rewrite <- app_assoc. apply X. Qed.
Lemma stops_self P z : stops P z -> stopsb P z.
Proof. intros H. rewrite <- (app_nil_r P). apply stops_stopsb, H. Qed.
Lemma stopsb_heads F z : stopsb F z -> heads z.
Proof. intros [->|(a & Q & h & z1 & E & H & _)]; [left; reflexivity|]. right. eauto 8. Qed.
Lemma header_ne z aot Q h : header z aot Q h -> exists a r, h = a ++ chLBR :: r /\ Grammar.blanks a.
Proof. intros H. destruct (header_parts _ _ _ _ H) as (a & k & t & Ha & _ & _ & ->). exists a. destruct aot; cbn [opening app]; eauto. Qed.
Section Run.
Variable Fi : Prop.
Variables (sf : bool) (sp : str -> str) (src : str).
Hypothesis Even : sf = true -> even_headers sp src.
Hypothesis Calm : calm sf src.
Local Notation ready := (DocHead.ready sf src).
Local Notation here := (DocHead.here sf src).
Local Notation spelt := (DocHead.spelt sf sp).
Local Notation skey_ok := (DocHead.skey_ok sf sp).
Local Notation dfinish := (DocHead.dfinish sf).
Local Notation dadds := (DocSpot.dadds sf).
Lemma here_calm pre z : here pre z -> calm sf z.
Proof. intros H Hs. destruct (H Hs) as [E _]. apply (calm_app sf pre z); [|exact Hs]. rewrite E. exact Calm. Qed.
Lemma ready_rest pre z aot Q h st : header z aot Q h -> ready pre (h ++ z) st -> p_rest st <> [].
Proof. intros H R. destruct (ready_header _ _ _ _ _ _ H R) as (a & k & t & _ & _ & _ & _ & ->). destruct aot; discriminate. Qed.
Lemma ready_end pre st : ready pre [] st -> p_rest st = [].
Proof. intros (_ & a & z' & mk & -> & E & _ & [[-> _]|[_ [r ->]]]); [reflexivity|]. destruct a; discriminate. Qed.
(** The loop over lines stops at a header. *)
Lemma loop_ready K stk c pre z mk : heads z -> here pre z -> exists st, ready pre z st /\ forall n, table_loop sf (S n) K stk c (mkSt pre z mk) = siblings sf (S n) K stk c st.
Proof.
  intros [->|(aot & Q & h & z1 & -> & H)] Hh.
  - exists (mkSt pre [] mk). split; [|reflexivity]. split; [exact Hh|]. exists [], [], mk. rewrite app_nil_r. repeat split; [constructor|]. left. auto.
  - destruct (header_ne _ _ _ _ H) as (a & r & -> & Ha). exists (mkSt (pre ++ a) (chLBR :: r ++ z1) (List.length pre)). split.
    + split; [exact Hh|]. exists a, (chLBR :: r ++ z1), (List.length pre). rewrite <- app_assoc. cbn [app]. repeat split; [exact Ha|]. right. split; [reflexivity|eauto].
    + intros n. rewrite <- app_assoc. cbn [app table_loop siblings]. unfold bind at 1, endM, at_end. cbn [p_rest]. replace (match a ++ chLBR :: r ++ z1 with [] => true | _ => false end) with false by (destruct a; reflexivity).
      unfold bind at 1. rewrite item_header by exact Ha. unfold bind at 1, current, cur. cbn [p_rest]. change (chLBR =? chLBR)%N with true. cbv iota. reflexivity.
Qed.
Lemma sib_end F K stk c pre z st : hkey F K -> stopsb F z -> ready pre z st -> exists n, siblings sf n K stk c st = (Ok c, st).
Proof.
  intros HK Hz R. destruct Hz as [->|(a & Q & h & z1 & -> & H & X)].
  - exists 1. apply ready_end in R. cbn [siblings]. unfold bind at 1, endM, at_end. rewrite R. reflexivity.
  - destruct (header_peek _ _ _ _ _ _ H R) as (K' & m & E & HK'). pose proof (ready_rest _ _ _ _ _ _ H R) as Ne. exists (S m). cbn [siblings]. unfold bind at 1, endM, at_end.
    replace (match p_rest st with [] => true | _ => false end) with false by (destruct (p_rest st); [congruence|reflexivity]).
    unfold bind at 1. rewrite E by lia. cbn [snd]. replace (is_child K K') with false; [reflexivity|]. symmetry. apply Bool.not_true_is_false. intros C. apply (hkey_child F K Q K' HK HK') in C as [C1 C2].
    pose proof (firstn_skipn (List.length F) Q) as Y. rewrite C2 in Y. apply (X (skipn (List.length F) Q)); [|symmetry; exact Y]. intros Z. apply C1. rewrite Z, app_nil_r in Y. exact Y.
Qed.

(** * Calls of [_parse_table] *)
Inductive druns (F : list str) (pa : option key) (pt : option str) (stk : list key) : pst -> list dstep -> pst -> Prop :=
  | dr_nil st : druns F pa pt stk st [] st
  | dr_cons st aot x m p it st1 l st' : hdr_at st aot (F ++ x) -> x <> [] -> p_rest st <> [] -> parse_table sf m pa pt stk st = (Ok (KSingle p, it), st1) ->
      druns F pa pt stk st1 l st' -> druns F pa pt stk st ((p, it) :: l) st'.
Lemma druns_app F pa pt stk st l1 st1 l2 st2 : druns F pa pt stk st l1 st1 -> druns F pa pt stk st1 l2 st2 -> druns F pa pt stk st (l1 ++ l2) st2.
Proof. induction 1 as [|st aot x m p it st1 l st' H Hx Hr E R IH]; intros H2; [exact H2|]. cbn [app]. econstructor; eauto. Qed.
Definition dnot_elem (s : dstep) : Prop := match snd s with ITable _ m => tm_aot m = false | _ => True end.
Lemma sib_druns F K stk st l st' : hkey F K -> druns F (Some K) (Some (key_string K)) stk st l st' -> forall c c' n cR stR,
  fold_res (fun c (s : dstep) => table_raw_append sf c (Some (KSingle (fst s))) (snd s)) l c = Ok c' -> siblings sf n K stk c' st' = (Ok cR, stR) -> exists n', siblings sf n' K stk c st = (Ok cR, stR).
Proof.
  intros HK. induction 1 as [|st aot x m p it st1 l st' (K' & m' & Ep & HK') Hx Hr E R IH]; intros c c' n cR stR A En.
  - cbn [fold_res] in A. injection A as ->. eauto.
  - cbn [fold_res fst snd] in A. destruct (table_raw_append sf c (Some (KSingle p)) it) as [c1|e] eqn:Ea; [|discriminate]. cbn [rbind] in A. destruct (IH c1 c' n cR stR A En) as [n' En'].
    exists (S (m' + m + n')). cbn [siblings]. unfold bind at 1, endM, at_end. replace (match p_rest st with [] => true | _ => false end) with false by (destruct (p_rest st); [congruence|reflexivity]).
    unfold bind at 1. rewrite Ep by lia. cbn [snd]. destruct x as [|k ch]; [congruence|]. rewrite (child_of F K k ch K' HK HK').
    apply (ptable_up m (m' + m + n')) in E; [|lia]. unfold bind at 1. rewrite E. cbn [fst snd]. unfold bind at 1, table_append_m, lift. rewrite Ea. apply (sibs_up n' (m' + m + n')) in En'; [|lia]. exact En'.
Qed.
Lemma tables_druns st l st' : druns [] None None [] st l st' -> forall c c' n cR stR, Forall dnot_elem l ->
  fold_res (fun c (s : dstep) => cappend sf c (Some (KSingle (fst s))) (snd s)) l c = Ok c' -> tables_loop sf n c' st' = (Ok cR, stR) -> exists n', tables_loop sf n' c st = (Ok cR, stR).
Proof.
  induction 1 as [|st aot x m p it st1 l st' _ Hx Hr E R IH]; intros c c' n cR stR Hd A En.
  - cbn [fold_res] in A. injection A as ->. eauto.
  - apply Forall_cons_iff in Hd as [Hd1 Hd]. unfold dnot_elem in Hd1. cbn [snd] in Hd1. cbn [fold_res fst snd] in A. destruct (cappend sf c (Some (KSingle p)) it) as [c1|e] eqn:Ea; [|discriminate]. cbn [rbind] in A.
    destruct (IH c1 c' n cR stR Hd A En) as [n' En'].
    exists (S (m + n')). cbn [tables_loop]. unfold bind at 1, endM, at_end. replace (match p_rest st with [] => true | _ => false end) with false by (destruct (p_rest st); [congruence|reflexivity]).
    apply (ptable_up m (m + n')) in E; [|lia]. unfold bind at 1. rewrite E. cbn [fst snd]. apply (tables_up n' (m + n')) in En'; [|lia].
    destruct it as [ | | | | | |tc tm| ]; try (unfold bind at 1, ret at 1; unfold bind at 1; rewrite Ea; exact En'). rewrite Hd1. unfold bind at 1, ret at 1; unfold bind at 1; rewrite Ea; exact En'.
Qed.

(** * The statements *)
Definition within (stk : list key) (tops : list str) : Prop := forall s, single_in stk s -> In s tops.
Definition ctx (tops P ch : list str) (pa : option key) (stk : list key) : Prop :=
  parent_of P pa /\ stack_ok (List.length P) stk /\ within stk tops /\ Forall (fun k => ~ In k tops) ch.
(** The text of the header of the table at [P]. *)
Definition ptx (P : list str) (pt : option str) : Prop := sf = true -> pt = match P with [] => None | _ => Some (join [46%N] (map sp P)) end.
Definition Bd (tops path : list str) (z w : str) (d : list (str * pyv)) : Prop := forall K stk pre mk,
  hkey path K -> stack_ok (List.length path) stk -> within stk tops -> stopsb path z -> (Fi -> fin z w) -> ptx path (Some (key_string K)) -> here pre (w ++ z) ->
  exists c n st', nh Fi false tops path c d /\ ready (pre ++ w) z st' /\ table_loop sf n K stk (empty_cont true) (mkSt pre (w ++ z) mk) = (Ok c, st').
Definition Ts (tops path : list str) (z w : str) (l : list (str * pyv)) : Prop := forall P ch pa pt stk pre st,
  path = P ++ ch -> ctx tops P ch pa stk -> ptx P pt -> stopsb path z -> (Fi -> fin z w) -> NoDup (map fst l) -> ready pre (w ++ z) st ->
  exists steps st', ready (pre ++ w) z st' /\ druns P pa pt stk st steps st' /\ Forall dnot_elem steps /\
    forall fr c r, spot Fi sf sp tops P fr c r -> map snd fr = ch -> NoDup (map fst r ++ map fst l) -> exists c', dadds steps c c' /\ spot Fi sf sp tops P fr c' (r ++ l).
Definition Tb (tops path : list str) (z : str) (k w : str) (v : pyv) : Prop := forall P ch pa pt stk pre st,
  path = P ++ ch -> ctx tops P ch pa stk -> ptx P pt -> stops (path ++ [k]) z -> (Fi -> fin z w) -> ready pre (w ++ z) st ->
  exists steps st', ready (pre ++ w) z st' /\ druns P pa pt stk st steps st' /\ Forall dnot_elem steps /\
    forall fr c r, spot Fi sf sp tops P fr c r -> map snd fr = ch -> ~ In k (map fst r) -> exists c', dadds steps c c' /\ spot Fi sf sp tops P fr c' (r ++ [(k, v)]).
Definition ArLoop (tops path : list str) (z w : str) (ds : list (list (str * pyv))) : Prop := forall full stk pre st payload,
  hkey path full -> spelt path full -> stack_ok (List.length path) stk -> within (full :: stk) tops -> stops path z -> (Fi -> fin z w) -> ready pre (w ++ z) st ->
  exists L n st', elems Fi tops path L ds /\ ready (pre ++ w) z st' /\ aot_loop sf n payload full (full :: stk) st = (Ok (payload ++ L), st').
Definition ArChain (tops path : list str) (z w : str) (ds : list (list (str * pyv))) : Prop := forall P ch k pa pt stk pre st,
  path = P ++ ch ++ [k] -> ch <> [] -> ctx tops P ch pa stk -> ptx P pt -> stops path z -> (Fi -> fin z w) -> ready pre (w ++ z) st ->
  exists steps st', ready (pre ++ w) z st' /\ druns P pa pt stk st steps st' /\ Forall dnot_elem steps /\
    forall fr c r l, array_spot Fi sf sp tops P fr c r k l -> map snd fr = ch -> exists c', dadds steps c c' /\ array_spot Fi sf sp tops P fr c' r k (l ++ ds).
Definition ArFirst (tops path : list str) (z w : str) (ds : list (list (str * pyv))) : Prop := ds <> [] -> forall P k pa pt stk pre st,
  path = P ++ [k] -> parent_of P pa -> ptx P pt -> stack_ok (List.length P) stk -> within stk tops -> (P = [] -> In k tops) -> stops path z -> (Fi -> fin z w) -> ready pre (w ++ z) st ->
  exists p L n st', k_key p = k /\ k_dotted p = false /\ skey_ok p /\ elems Fi tops path L ds /\ hdr_at st true path /\ p_rest st <> [] /\ ready (pre ++ w) z st' /\
    parse_table sf n pa pt stk st = (Ok (KSingle p, IAoT L None true aot_trivia), st').
Definition Ar tops path z w ds : Prop := ArLoop tops path z w ds /\ ArChain tops path z w ds /\ ArFirst tops path z w ds.

(** * A header and its body *)
Lemma quiet_head tops P x pa pt stk aot full : hkey (P ++ x) full -> spelt (P ++ x) full -> parent_of P pa -> ptx P pt -> within stk tops -> (2 <= List.length x -> ~ In (hd [] x) tops) -> quiet sf pa pt stk aot full.
Proof.
  intros HK ((_ & _ & Eo & En) & Sp) HP Hp Hw Hx Hs. cbv zeta.
  assert (L : match pa with Some p => List.length (key_parts p) | None => O end = List.length P). { destruct pa as [K|]; [apply (hkey_length _ _ HP)|]. rewrite HP. reflexivity. }
  rewrite L. set (parts := skipn (List.length P) (key_parts full)).
  assert (Ek : map k_key parts = x). { subst parts. rewrite <- skipn_map, En, skipn_app, skipn_all, Nat.sub_diag. reflexivity. }
  assert (Es : map k_orig parts = map sp x). { subst parts. rewrite <- skipn_map, (Sp Hs), map_app, skipn_app, map_length, Nat.sub_diag, skipn_all2 by (rewrite map_length; lia). reflexivity. }
  split.
  - intros _. rewrite Eo. unfold origs at 1. rewrite (Sp Hs), (Hp Hs). clearbody parts. clear - Es HK. destruct P as [|p P].
    + unfold rendered_name, origs. rewrite Es. reflexivity.
    + unfold rendered_name. destruct parts as [|q parts].
      * destruct x; [|discriminate]. rewrite app_nil_r. reflexivity.
      * unfold origs. rewrite Es. rewrite map_app. apply join_app; [discriminate|destruct x; discriminate].
  - destruct parts as [|q parts]; [reflexivity|]. destruct x as [|x0 x]; [discriminate|]. cbn [map] in Ek. injection Ek as Ek Ex. destruct parts as [|q2 parts]; [reflexivity|]. destruct x as [|x1 x]; [discriminate|].
    replace (existsb (key_eqb (KSingle q)) stk) with false; [rewrite !andb_false_r; reflexivity|]. symmetry. apply Bool.not_true_is_false. intros Z. apply in_stack_single in Z. apply (Hx ltac:(cbn; lia)). cbn [hd]. rewrite <- Ek. apply Hw, Z.
Qed.
Lemma spelt_ptx Q full : Q <> [] -> spelt Q full -> ptx Q (Some (key_string full)).
Proof. intros Ne H Hs. rewrite (spelt_string _ _ _ _ H Hs). destruct Q; [congruence|reflexivity]. Qed.
Definition flat (Q : list str) (t t0 : trivia) : Prop := (3 <= List.length Q -> flush sf t) /\ flush sf t0.
Lemma head_body tops aot P x z h u d pre st stk : header (u ++ z) aot (P ++ x) h -> Bd tops (P ++ x) z u d -> ready pre (h ++ u ++ z) st -> stack_ok (List.length (P ++ x)) stk -> within stk tops -> stopsb (P ++ x) z -> (Fi -> fin z (h ++ u)) -> (2 <= List.length x -> ~ In (hd [] x) tops) ->
  exists full t t0 c n st', hkey (P ++ x) full /\ spelt (P ++ x) full /\ (Fi -> tidy t /\ tidy t0) /\ flat (P ++ x) t t0 /\ nh Fi false tops (P ++ x) c d /\ ready (pre ++ h ++ u) z st' /\ hdr_at st aot (P ++ x) /\ p_rest st <> [] /\
    forall pa pt n', n <= n' -> parent_of P pa -> ptx P pt -> parse_table sf (S n') pa pt stk st = dfinish n' pa stk aot full t t0 c st'.
Proof.
  intros H HB R Hst Hw Hz Fn Hx. destruct (head_run sf src sp Even _ _ _ _ _ _ H R) as (full & t & t0 & mk' & m & HK & WK & Ti & Fl & Fl0 & Tl & E). assert (Ne : P ++ x <> []) by (eapply hkey_ne, HK).
  destruct (HB full stk (pre ++ h) mk' HK Hst Hw Hz) as (c & n & st' & Hs & R' & El). { intros HF. eapply fin_right, Fn, HF. } { apply spelt_ptx; assumption. } { apply (here_header sf src pre (u ++ z) aot (P ++ x) h H), R. } rewrite <- app_assoc in R'.
  exists full, t, t0, c, (m + n), st'. split; [exact HK|]. split; [exact WK|]. split; [intros HF; apply Ti, fin_left, Fn, HF|]. split; [split; [intros L X; apply Fl; assumption|intros _; rewrite Fl0; reflexivity]|]. split; [exact Hs|]. split; [exact R'|]. split; [eapply header_peek; eauto|]. split; [eapply ready_rest; eauto|].
  intros pa pt n' Hn HP Hp. rewrite E by (lia || (eapply quiet_head; eauto)). unfold after_head. unfold bind at 1. pose proof El as El0. apply (tloop_up n n') in El; [|lia]. rewrite El. unfold bind at 1, lift. rewrite (holds_validate c d (proj1 Hs)).
  assert (L8 : sf && negb (inb chLF (tr_trail t)) && cont_nonempty c = false).
  { destruct Tl as [->|Z]; [rewrite andb_false_r; reflexivity|]. apply andb_false_iff. right. rewrite Z in El0. destruct n as [|n]; [discriminate|]. cbn [table_loop] in El0. unfold bind at 1, endM, at_end in El0. cbn [p_rest] in El0. injection El0 as <- _. reflexivity. }
  unfold bind at 1. rewrite L8. reflexivity.
Qed.
Lemma nest_nested t c m aot : (Fi -> tidy t) -> forall rest parent, rest <> [] -> (2 <= List.length rest -> flush sf t) -> Forall (fun p => k_dotted p = false) rest -> Forall skey_ok rest -> exists sk1 it1 q nm, nest t rest parent c m aot = singleton sk1 it1 /\
  nested Fi sf sp (removelast (map k_key rest)) sk1 it1 q (leaf_item c m aot nm) /\ k_key q = last (map k_key rest) [].
Proof.
  intros Ti. induction rest as [|a rest IH]; intros parent Ne Fl Fd Fm; [congruence|]. apply Forall_cons_iff in Fd as [Da Fd]. apply Forall_cons_iff in Fm as [Ma Fm]. destruct rest as [|b rest].
  - cbn [nest map removelast last]. exists a, (leaf_item c m aot parent), a, parent. split; [reflexivity|]. split; [constructor; assumption|reflexivity].
  - destruct (IH (k_key a) ltac:(discriminate) ltac:(intros _; apply Fl; cbn [List.length]; lia) Fd Fm) as (sk1 & it1 & q & nm & E & N & Kq). remember (b :: rest) as br eqn:Eb. assert (Hb : exists b' r', map k_key br = b' :: r') by (subst br; cbn; eauto). destruct Hb as (b' & r' & Hb).
    exists a, (mk_table (nest t br (k_key a) c m aot) t false true (Some (k_key a)) None), q, nm. split; [subst br; reflexivity|]. cbn [map]. rewrite Hb in *. cbn [removelast last] in *. split; [|exact Kq].
    rewrite E. unfold mk_table. apply nd_in; [exact Da|reflexivity|reflexivity|discriminate|reflexivity|exact Ma|split; [exact Ti|apply Fl; subst br; cbn [List.length]; lia]|exact N].
Qed.
Lemma skip_all {A} (Pr : A -> Prop) n l : Forall Pr l -> Forall Pr (skipn n l).
Proof. revert l. induction n as [|n IH]; intros l H; [exact H|]. destruct l; [constructor|]. apply IH. inversion H; assumption. Qed.
(** The item read from a header that skips some names. *)
Lemma finish_chain tops P ch k pa stk aot full t t0 c st n : ctx tops P ch pa stk -> ch <> [] -> hkey (P ++ ch ++ [k]) full -> spelt (P ++ ch ++ [k]) full -> (Fi -> tidy t /\ tidy t0) -> flat (P ++ ch ++ [k]) t t0 ->
  exists p it q nm m, dfinish n pa stk aot full t t0 c st = (Ok (KSingle p, it), st) /\ nested Fi sf sp ch p it q (leaf_item c m aot nm) /\ k_key q = k /\ tm_name m <> None /\ m = mkTM t aot (Some false) (tm_name m) (Some (key_string full)) /\ dnot_elem (p, it).
Proof.
  intros (HP & Hst & Hw & Hk) Ne HK WK Ti [Fl Fl0]. apply spelt_parts in WK. destruct ch as [|k1 ch]; [congruence|]. cbn [app] in HK. destruct (parts_split P k1 (ch ++ [k]) full pa HP HK) as (p & rest & Ep & Kp & Kr & Dp).
  destruct rest as [|p2 rest]; [destruct ch; discriminate|]. apply Forall_cons_iff in Dp as [Dp Dr].
  assert (Wp : Forall skey_ok (p :: p2 :: rest)) by (rewrite <- Ep; apply skip_all, WK). apply Forall_cons_iff in Wp as [Wp Wr].
  assert (Fl2 : 2 <= List.length (p2 :: rest) -> flush sf t). { intros L. apply Fl. apply (f_equal (@List.length str)) in Kr. rewrite map_length, app_length in Kr. cbn [List.length] in *. rewrite !app_length. cbn [List.length app]. rewrite ?app_length. cbn [List.length]. lia. }
  set (m := mkTM t aot (Some false) (Some (k_key (last (p2 :: rest) p))) (Some (key_string full))).
  destruct (nest_nested t c m aot (fun HF => proj1 (Ti HF)) (p2 :: rest) (k_key p) ltac:(discriminate) Fl2 Dr Wr) as (sk1 & it1 & q & nm & E & N & Kq). rewrite Kr in N, Kq. rewrite removelast_last in N. rewrite last_last in Kq.
  assert (In_st : aot && existsb (key_eqb (KSingle p)) stk = false). { destruct aot; [|reflexivity]. cbn [andb]. apply Bool.not_true_is_false. intros Z. apply in_stack_single in Z. rewrite Kp in Z. apply Forall_inv in Hk. apply Hk, Hw, Z. }
  eexists p, _, q, nm, m. split; [unfold DocHead.dfinish; cbv zeta; rewrite Ep; fold m; rewrite In_st; reflexivity|]. rewrite E, <- Kp. split; [|split; [exact Kq|split; [discriminate|split; reflexivity]]].
  apply nd_in; [exact Dp|reflexivity|reflexivity|discriminate|reflexivity|exact Wp|split; [intros HF; apply (Ti HF)|exact Fl0]|exact N].
Qed.
Lemma ctx_more tops P ch pa stk k : ctx tops P ch pa stk -> stack_ok (List.length (P ++ ch ++ [k])) stk.
Proof. intros (_ & H & _). eapply Forall_impl; [|exact H]. cbv beta. intros K HK. rewrite !app_length. lia. Qed.

Lemma ctx_hd tops P ch pa stk k : ctx tops P ch pa stk -> 2 <= List.length (ch ++ [k]) -> ~ In (hd [] (ch ++ [k])) tops.
Proof. intros (_ & _ & _ & H) L. destruct ch as [|c ch]; [cbn in L; lia|]. apply Forall_inv in H. exact H. Qed.

(** * Tables *)
Lemma dadds_new tops path c r p it v : nh Fi false tops path c r -> ~ In (k_key p) (map fst r) -> says it v -> tneat Fi tops path p it v -> dadds [(p, it)] c (add_new c p it) /\ nh Fi false tops path (add_new c p it) (r ++ [(k_key p, v)]).
Proof.
  intros Hs N U T. destruct (cappend_hold (sf := sf) c r p it v (proj1 Hs) N U) as [E _]. split; [|apply nh_add; assumption]. split; cbn [fold_res fst snd]; [rewrite (table_hold c r) by (apply Hs || assumption)|rewrite E]; reflexivity.
Qed.
Lemma run_table tops path z k h w d : header (w ++ z) false (path ++ [k]) h -> Bd tops (path ++ [k]) z w d -> Tb tops path z k (h ++ w) (PDict d).
Proof.
  intros H HB P ch pa pt stk pre st -> C Hp Hz Fn R. rewrite <- app_assoc in H, HB, Hz. rewrite <- app_assoc in R. pose proof C as (HP & Hst & Hw & Hk).
  destruct (head_body tops false P (ch ++ [k]) z h w d pre st stk H HB R (ctx_more _ _ _ _ _ _ C) Hw (stops_self _ _ Hz) Fn (ctx_hd _ _ _ _ _ _ C)) as (full & t & t0 & c & n & st' & HK & WK & Ti & Fl & Hs & R' & Hh & Hr & E).
  specialize (E pa pt n (Nat.le_refl n) HP Hp).
  assert (X : exists p it q m, dfinish n pa stk false full t t0 c st' = (Ok (KSingle p, it), st') /\ nested Fi sf sp ch p it q (ITable c m) /\ k_key q = k /\ tm_name m <> None /\ m = mkTM t false (Some false) (tm_name m) (Some (key_string full)) /\ dnot_elem (p, it)).
  { destruct ch as [|k1 ch].
    - cbn [app] in HK, WK. destruct (parts_split P k [] full pa HP HK) as (p & rest & Ep & Kp & Kr & Dp). destruct rest; [|discriminate]. apply spelt_parts in WK. assert (Wp : Forall skey_ok [p]) by (rewrite <- Ep; apply skip_all, WK). apply Forall_inv in Wp. apply Forall_inv in Dp.
      eexists p, _, p, _. split; [unfold DocHead.dfinish; cbv zeta; rewrite Ep; cbn [andb]; reflexivity|].
      split; [constructor; assumption|]. split; [exact Kp|]. split; [discriminate|]. split; reflexivity.
    - destruct (finish_chain tops P (k1 :: ch) k pa stk false full t t0 c st' n C ltac:(discriminate) HK WK Ti Fl) as (p & it & q & nm & m & E1 & N & Kq & Nm & Em & Ne). exists p, it, q, m. auto 8. }
  destruct X as (p & it & q & m & E1 & N & Kq & Nm & Em & Ne). exists [(p, it)], st'. split; [exact R'|].
  split; [|split; [constructor; [exact Ne|constructor]|]].
  - eapply dr_cons; [exact Hh|destruct ch; discriminate|exact Hr|rewrite E; exact E1|constructor].
  - intros fr c0 r0 Sp Ef Nk. destruct (nested_leaf _ _ _ _ _ _ _ _ N) as [Kd Nq]. subst k. apply (table_put Fi sf sp tops P fr c0 r0 p it q (ITable c m) (PDict d)); auto; [rewrite Ef; exact N|apply holds_says, Hs|].
    rewrite Ef. rewrite app_assoc in Hs. destruct WK as [(_ & WK & _) _]. rewrite app_assoc in WK. rewrite Em. apply shown_neat; [exact Hs|exact Kd|reflexivity|reflexivity|eexists; split; [reflexivity|exact WK]|apply Nq|intros HF; apply (Ti HF)].
Qed.
Lemma run_implicit tops path z k w l : ~ In k tops -> Ts tops (path ++ [k]) z w l -> l <> [] -> NoDup (map fst l) -> Tb tops path z k w (PDict l).
Proof.
  intros Hk HT Ne Nd P ch pa pt stk pre st -> (HP & Hst & Hw & Hc) Hp Hz Fn R.
  destruct (HT P (ch ++ [k]) pa pt stk pre st) as (steps & st' & R' & Rn & Hn & A); [rewrite <- app_assoc; reflexivity| |exact Hp|apply stops_self, Hz|exact Fn|exact Nd|exact R|].
  { split; [exact HP|]. split; [exact Hst|]. split; [exact Hw|]. apply Forall_app. split; [exact Hc|constructor; [exact Hk|constructor]]. }
  exists steps, st'. split; [exact R'|]. split; [exact Rn|]. split; [exact Hn|]. intros fr c r Sp Ef Nk.
  destruct (A (fr ++ [(r, k)]) c [] (spot_open Fi sf sp tops P fr c r k Sp Nk Hk)) as (c' & Ad & Sp'); [rewrite map_app, Ef; reflexivity|exact Nd|]. exists c'. split; [exact Ad|]. apply spot_close; assumption.
Qed.
Lemma run_array tops path z k w ds : Ar (match path with [] => k :: tops | _ => tops end) (path ++ [k]) z w ds -> ds <> [] -> Tb tops path z k w (PList (map PDict ds)).
Proof.
  intros (_ & HC & HF) Ne P ch pa pt stk pre st -> C Hp Hz Fn R. pose proof C as (HP & Hst & Hw & Hc).
  set (tops' := match P ++ ch with [] => k :: tops | _ => tops end) in *.
  assert (Hw' : within stk tops'). { intros s Hs. specialize (Hw s Hs). subst tops'. destruct (P ++ ch); [right|]; exact Hw. }
  destruct ch as [|k1 ch].
  - subst tops'. rewrite app_nil_r in *. destruct (HF Ne P k pa pt stk pre st eq_refl HP Hp Hst Hw') as (p & L & n & st' & Kp & Kd & Nm & El & Hh & Hr & R' & E); [intros ->; left; reflexivity|exact Hz|exact Fn|exact R|].
    exists [(p, IAoT L None true aot_trivia)], st'. split; [exact R'|]. split; [eapply dr_cons; [exact Hh|discriminate|exact Hr|exact E|constructor]|]. split; [constructor; [exact I|constructor]|].
    intros fr c r Sp Ef Nk. destruct fr; [|discriminate]. apply spot_here in Sp. subst k. destruct (dadds_new tops P c r p _ _ Sp Nk (elems_says L ds None true aot_trivia (elems_both _ _ _ _ _ El))) as [[A1 A2] Hs]. { destruct Nm as [Nm _]. apply array_neat; assumption. }
    exists (add_new c p (IAoT L None true aot_trivia)). split; [split; [exact A1|exact A2]|]. apply spot_here. exact Hs.
  - assert (Et : tops' = tops) by (subst tops'; destruct P; reflexivity). rewrite Et in *.
    destruct (HC P (k1 :: ch) k pa pt stk pre st) as (steps & st' & R' & Rn & Hn & A); [rewrite <- app_assoc; reflexivity|discriminate|exact C|exact Hp|exact Hz|exact Fn|exact R|].
    exists steps, st'. split; [exact R'|]. split; [exact Rn|]. split; [exact Hn|]. intros fr c r Sp Ef Nk.
    destruct (A fr c r []) as (c' & Ad & As); [left; auto|exact Ef|]. exists c'. split; [exact Ad|]. apply array_done; assumption.
Qed.

(** * Lists of tables *)
Lemma run_tables_nil tops path z : Ts tops path z [] [].
Proof.
  intros P ch pa pt stk pre st -> C Hp Hz _ _ R. exists [], st. rewrite app_nil_r. split; [exact R|]. split; [constructor|]. split; [constructor|]. intros fr c r Sp Ef _. exists c. rewrite app_nil_r. split; [split; reflexivity|exact Sp].
Qed.
Lemma table_heads : (forall tops path z w d, body tops path z w d -> True) /\
  (forall tops path z w l, tables tops path z w l -> forall k v l', l = (k, v) :: l' -> exists aot x h z1, w ++ z = h ++ z1 /\ header z1 aot (path ++ k :: x) h) /\
  (forall tops path z k w v, table tops path z k w v -> exists aot x h z1, w ++ z = h ++ z1 /\ header z1 aot (path ++ k :: x) h) /\
  (forall tops path z w ds, array_elements tops path z w ds -> ds <> [] -> exists h z1, w ++ z = h ++ z1 /\ header z1 true path h).
Proof.
  apply document_mut; try (intros; exact I).
  - intros; discriminate.
  - intros tops path z k v u w l _ (aot & x & h & z1 & E & H) _ _ k0 v0 l' El. injection El as <- _ _. exists aot, x, h, z1. rewrite <- app_assoc. auto.
  - intros tops path z k h w d H _ _. exists false, [], h, (w ++ z). rewrite <- app_assoc. auto.
  - intros tops path z k w l _ _ IH Ne _. destruct l as [|[k1 v1] l]; [congruence|]. destruct (IH k1 v1 l eq_refl) as (aot & x & h & z1 & E & H). exists aot, (k1 :: x), h, z1. rewrite <- app_assoc in H. auto.
  - intros tops path z k w ds _ IH Ne. destruct (IH Ne) as (h & z1 & E & H). exists true, [], h, z1. auto.
  - intros tops path z Ne. congruence.
  - intros tops path z h u d w ds H _ _ _ _ _. exists h, (u ++ w ++ z). rewrite <- !app_assoc. auto.
Qed.
Lemma tables_empty tops path z w : tables tops path z w [] -> w = [].
Proof. intros H. inversion H; reflexivity. Qed.
Lemma elements_empty tops path z w : array_elements tops path z w [] -> w = [].
Proof. intros H. inversion H; reflexivity. Qed.
Lemma tables_stops tops path z w l k : tables tops path z w l -> ~ In k (map fst l) -> stopsb path z -> stops (path ++ [k]) (w ++ z).
Proof.
  intros H Nk Hz. destruct l as [|[k1 v1] l].
  - rewrite (tables_empty _ _ _ _ H). apply stopsb_stops, Hz.
  - destruct (proj1 (proj2 table_heads) _ _ _ _ _ H _ _ _ eq_refl) as (aot & x & h & z1 & E & Hh). right. exists aot, (path ++ k1 :: x), h, z1. split; [exact E|]. split; [exact Hh|].
    intros y Z. rewrite <- app_assoc in Z. apply app_inv_head in Z. injection Z as Z _. apply Nk. left. exact Z.
Qed.
Lemma tables_head tops path z w l : tables tops path z w l -> stopsb path z -> heads (w ++ z).
Proof.
  intros H Hz. destruct l as [|[k1 v1] l]; [rewrite (tables_empty _ _ _ _ H); eapply stopsb_heads, Hz|].
  destruct (proj1 (proj2 table_heads) _ _ _ _ _ H _ _ _ eq_refl) as (aot & x & h & z1 & E & Hh). right. eauto 8.
Qed.
Lemma elements_stopsb tops path z w ds : array_elements tops path z w ds -> stops path z -> stopsb path (w ++ z).
Proof.
  intros H Hz. destruct ds as [|d ds]; [rewrite (elements_empty _ _ _ _ H); apply stops_self, Hz|].
  destruct (proj2 (proj2 (proj2 table_heads)) _ _ _ _ _ H ltac:(discriminate)) as (h & z1 & E & Hh). right. exists true, path, h, z1. split; [exact E|]. split; [exact Hh|].
  intros x Hx Z. apply Hx. rewrite <- (app_nil_r path) in Z at 1. apply app_inv_head in Z. auto.
Qed.
Lemma run_tables_cons tops path z k v u w l : tables tops path z w l -> Tb tops path (w ++ z) k u v -> Ts tops path z w l -> Ts tops path z (u ++ w) ((k, v) :: l).
Proof.
  intros Hl HT HS P ch pa pt stk pre st -> C Hp Hz Fn Nd R. cbn [map fst] in Nd. inversion Nd as [|? ? Nk Nd']; subst. rewrite <- app_assoc in R.
  destruct (HT P ch pa pt stk pre st eq_refl C Hp (tables_stops _ _ _ _ _ _ Hl Nk Hz) (fun HF => fin_left _ _ _ (Fn HF)) R) as (s1 & st1 & R1 & Rn1 & Hn1 & A1).
  destruct (HS P ch pa pt stk (pre ++ u) st1 eq_refl C Hp Hz (fun HF => fin_right _ _ _ (Fn HF)) Nd' R1) as (s2 & st2 & R2 & Rn2 & Hn2 & A2). rewrite <- app_assoc in R2.
  exists (s1 ++ s2), st2. split; [exact R2|]. split; [eapply druns_app; eauto|]. split; [apply Forall_app; auto|]. intros fr c r Sp Ef Nr. cbn [map fst] in Nr.
  destruct (A1 fr c r Sp Ef (nodup_mid _ _ _ Nr)) as (c1 & D1 & Sp1). destruct (A2 fr c1 (r ++ [(k, v)]) Sp1 Ef) as (c2 & D2 & Sp2). { rewrite map_app, <- app_assoc. exact Nr. }
  exists c2. split; [eapply dadds_app; eauto|]. rewrite <- app_assoc in Sp2. exact Sp2.
Qed.
Lemma lines_nh tops path c ps : holds c (dict_of ps) -> (Fi -> nlines [] (c_body c) ps) -> NoDup (map fst ps) -> nh Fi false tops path c (dict_of ps).
Proof.
  intros H N Nd. split; [exact H|]. intros HF. exists (c_body c), [], ps, []. rewrite !app_nil_r. split; [reflexivity|]. split; [discriminate|]. split; [apply N, HF|]. split; [reflexivity|]. split; [rewrite dict_fst; exact Nd|]. intros; split; [constructor|reflexivity].
Qed.
Lemma run_body tops path z u ps w l : pair_lines (w ++ z) [] u ps -> tables tops path z w l -> Ts tops path z w l -> NoDup (map fst (dict_of ps ++ l)) -> Bd tops path z (u ++ w) (dict_of ps ++ l).
Proof.
  intros Hu Hl HT Nd K stk pre mk HK Hst Hw Hz Fn Hp Hh. rewrite map_app in Nd. rewrite <- app_assoc in Hh.
  destruct (lines_table (w ++ z) [] u ps Hu sf K stk (empty_cont true) pre mk (here_calm _ _ Hh) grows_empty) as (c1 & mk1 & Hs0 & Nl & X1). { intros b k0 l0 g Eb. destruct b; discriminate. }
  assert (Hs1 : nh Fi false tops path c1 (dict_of ps)) by (apply lines_nh; [exists ps; auto|intros HF; apply Nl; [apply fin_left, Fn, HF|constructor]|rewrite <- dict_fst; eapply nodup_left; exact Nd]).
  destruct (loop_ready K stk c1 (pre ++ u) (w ++ z) mk1 (tables_head _ _ _ _ _ Hl Hz) (here_lines _ _ _ _ _ _ Hu pre Hh)) as (st & R & El).
  destruct (HT path [] (Some K) (Some (key_string K)) stk (pre ++ u) st) as (steps & st' & R' & Rn & _ & A); [rewrite app_nil_r; reflexivity| |exact Hp|exact Hz|intros HF; eapply fin_right, Fn, HF|eapply nodup_right; exact Nd|exact R|].
  { split; [exact HK|]. split; [exact Hst|]. split; [exact Hw|constructor]. }
  destruct (A [] c1 (dict_of ps)) as (c2 & [A1 _] & Sp2); [apply spot_here, Hs1|reflexivity|exact Nd|]. apply spot_here in Sp2.
  destruct (sib_end path K stk c2 _ z st' HK Hz R') as [n2 E2].
  destruct (sib_druns path K stk st steps st' HK Rn c1 c2 n2 c2 st' A1 E2) as [n3 E3]. apply (sibs_up n3 (S n3)) in E3; [|lia]. rewrite <- El in E3.
  destruct (X1 (S n3) c2 st' E3) as [n4 E4]. exists c2, n4, st'. split; [exact Sp2|]. rewrite <- app_assoc in R'. split; [exact R'|]. rewrite <- app_assoc. exact E4.
Qed.

(** * Arrays of tables *)
Lemma aot_end path full stk z pre st payload : hkey path full -> stops path z -> ready pre z st -> exists n, aot_loop sf n payload full stk st = (Ok payload, st).
Proof.
  intros HK Hz R. destruct Hz as [->|(a & Q & h & z1 & -> & H & X)].
  - exists 1. apply ready_end in R. cbn [aot_loop]. unfold bind at 1, endM, at_end. rewrite R. reflexivity.
  - destruct (header_peek _ _ _ _ _ _ H R) as (K' & m & E & HK'). pose proof (ready_rest _ _ _ _ _ _ H R) as Ne. exists (S m). cbn [aot_loop]. unfold bind at 1, endM, at_end.
    replace (match p_rest st with [] => true | _ => false end) with false by (destruct (p_rest st); [congruence|reflexivity]).
    unfold bind at 1. rewrite E by lia. cbn [fst snd]. replace (key_eqb K' full) with false; [rewrite andb_false_r; reflexivity|]. symmetry. apply Bool.not_true_is_false. intros C. apply (hkey_eqb Q K' path full HK' HK) in C. apply (X []). rewrite app_nil_r. exact C.
Qed.
Lemma run_elements_nil tops path z : Ar tops path z [] [].
Proof.
  split; [|split].
  - intros full stk pre st payload HK WK Hst Hw Hz _ R. cbn [app] in R. destruct (aot_end path full (full :: stk) z pre st payload HK Hz R) as [n E]. exists [], n, st. rewrite !app_nil_r. split; [constructor|]. split; [exact R|exact E].
  - intros P ch k pa pt stk pre st -> Nc C Hp Hz _ R. exists [], st. rewrite app_nil_r. split; [exact R|]. split; [constructor|]. split; [constructor|]. intros fr c r l Sp Ef. exists c. rewrite app_nil_r. split; [split; reflexivity|exact Sp].
  - intros Ne. congruence.
Qed.
Lemma run_elements_cons tops path z h u d w ds : header (u ++ w ++ z) true path h -> Bd tops path (w ++ z) u d -> array_elements tops path z w ds -> Ar tops path z w ds -> Ar tops path z (h ++ u ++ w) (d :: ds).
Proof.
  intros H HB Hel (HL & HC & _). assert (Fle : fin z (h ++ u ++ w) -> fin (w ++ z) (h ++ u)) by (rewrite app_assoc; apply fin_left). assert (Fr : fin z (h ++ u ++ w) -> fin z w) by (rewrite app_assoc; apply fin_right). split; [|split].
  - intros full stk pre st payload HK WK Hst Hw Hz Fn R. rewrite <- !app_assoc in R.
    destruct (head_body tops true path [] (w ++ z) h u d pre st (full :: stk)) as (full2 & t & t0 & c & n & st1 & HK2 & WK2 & Ti & Fl & Hs & R1 & (K' & mp & Ep & HK') & Hr & E).
    { rewrite app_nil_r; exact H. } { rewrite app_nil_r; exact HB. } { exact R. } { rewrite app_nil_r. constructor; [rewrite (hkey_length _ _ HK); lia|exact Hst]. } { exact Hw. } { rewrite app_nil_r. eapply elements_stopsb; eauto. } { intros HF; apply Fle, Fn, HF. } { cbn [List.length]. lia. }
    rewrite app_nil_r in *. specialize (E (Some full) (Some (key_string full))). assert (Hp : ptx path (Some (key_string full))) by (apply spelt_ptx; [eapply hkey_ne, HK|exact WK]).
    assert (X : exists m, tm_trivia m = t /\ forall n, dfinish n (Some full) (full :: stk) true full2 t t0 c st1 = (Ok (full2, ITable c m), st1)).
    { eexists (mkTM t true (Some false) _ _). split; [reflexivity|]. intros n'. unfold DocHead.dfinish. cbv zeta. rewrite skipn_all2 by (rewrite (hkey_length _ _ HK2), (hkey_length _ _ HK); lia).
      replace (key_eqb full2 full) with true by (symmetry; apply (hkey_eqb path full2 path full HK2 HK); reflexivity). reflexivity. }
    destruct X as (m & Em & X). destruct (HL full stk (pre ++ h ++ u) st1 (payload ++ [(c, m)]) HK WK Hst Hw Hz (fun HF => Fr (Fn HF)) R1) as (L & n2 & st2 & El & R2 & E2).
    exists ((c, m) :: L), (S (S (mp + n + n2))), st2. split; [constructor; [split; [exact Hs|cbn [snd]; rewrite Em; intros HF; apply (Ti HF)]|exact El]|]. rewrite <- !app_assoc in R2. split; [exact R2|].
    remember (S (mp + n + n2)) as q eqn:Eq. cbn [aot_loop]. unfold bind at 1, endM, at_end. replace (match p_rest st with [] => true | _ => false end) with false by (destruct (p_rest st); [congruence|reflexivity]).
    unfold bind at 1. rewrite Ep by lia. cbn [fst snd]. replace (key_eqb K' full) with true by (symmetry; apply (hkey_eqb path K' path full HK' HK); reflexivity). cbn [andb].
    unfold bind at 1. subst q. rewrite E by (lia || assumption). rewrite X. cbn [snd]. apply (aloop_up n2 (S (mp + n + n2))) in E2; [|lia]. rewrite <- app_assoc in E2. exact E2.
  - intros P ch k pa pt stk pre st -> Nc C Hp Hz Fn R. rewrite <- !app_assoc in R.
    destruct (head_body tops true P (ch ++ [k]) (w ++ z) h u d pre st stk H HB R (ctx_more _ _ _ _ _ _ C)) as (full & t & t0 & c & n & st1 & HK & WK & Ti & Fl & Hs & R1 & Hh & Hr & E).
    { apply C. } { eapply elements_stopsb; eauto. } { intros HF; apply Fle, Fn, HF. } { apply (ctx_hd _ _ _ _ _ _ C). }
    specialize (E pa pt n (Nat.le_refl n) (proj1 C) Hp). destruct (finish_chain tops P ch k pa stk true full t t0 c st1 n C Nc HK WK Ti Fl) as (p & it & q & nm & m & E1 & N & Kq & Nm & Em & Ne).
    destruct (HC P ch k pa pt stk (pre ++ h ++ u) st1 eq_refl Nc C Hp Hz (fun HF => Fr (Fn HF)) R1) as (steps & st2 & R2 & Rn & Hn & A).
    exists ((p, it) :: steps), st2. rewrite <- !app_assoc in R2. split; [exact R2|]. split; [eapply dr_cons; [exact Hh|destruct ch; discriminate|exact Hr|rewrite E; exact E1|exact Rn]|]. split; [constructor; assumption|].
    intros fr c0 r l Sp Ef. subst k. cbn [leaf_item] in N. rewrite <- Ef in N. destruct (array_put Fi sf sp tops P fr c0 r l p it q (c, m) nm d Sp N) as (c1 & D1 & Sp1).
    { rewrite Ef. replace (tops_in tops (P ++ ch) (k_key q)) with tops by (destruct ch; [congruence|]; destruct P; reflexivity). rewrite <- app_assoc. split; [exact Hs|]. cbn [snd]. rewrite Em. intros HF. apply (Ti HF). }
    destruct (A fr c1 r (l ++ [d]) Sp1 Ef) as (c2 & D2 & Sp2). exists c2. split; [apply (dadds_app sf [(p, it)] steps c0 c1 c2); assumption|]. rewrite <- app_assoc in Sp2. exact Sp2.
  - intros _ P k pa pt stk pre st -> HP Hp Hst Hw Hk Hz Fn R. rewrite <- !app_assoc in R.
    assert (Hst' : stack_ok (List.length (P ++ [k])) stk). { eapply Forall_impl; [|exact Hst]. cbv beta. intros K HK. rewrite app_length. lia. }
    destruct (head_body tops true P [k] (w ++ z) h u d pre st stk H HB R Hst' Hw) as (full & t & t0 & c & n & st1 & HK & WK & Ti & Fl & Hs & R1 & Hh & Hr & E). { eapply elements_stopsb; eauto. } { intros HF; apply Fle, Fn, HF. } { cbn [List.length]. lia. }
    specialize (E pa pt). destruct (parts_split P k [] full pa HP HK) as (p & rest & Ep & Kp & Kr & Dp). destruct rest; [|discriminate]. assert (Wp : Forall skey_ok [p]) by (rewrite <- Ep; apply skip_all, (spelt_parts _ _ _ _ WK)). apply Forall_inv in Wp. apply Forall_inv in Dp.
    set (m := mkTM t true (Some false) (Some (k_key p)) (Some (key_string full))).
    destruct (HL full stk (pre ++ h ++ u) st1 [(c, m)] HK WK Hst') as (L & n2 & st2 & El & R2 & E2).
    { intros s (sk & [Z|Z] & Es); [|apply Hw; exists sk; auto]. subst full s. destruct HK as [K1 _ _]. cbn [key_parts map] in K1. destruct P as [|x P]; [|destruct P; discriminate]. cbn [app] in K1. injection K1 as ->. apply Hk. reflexivity. }
    { exact Hz. } { intros HF; apply Fr, Fn, HF. } { exact R1. }
    pose proof (aot_make_same ((c, m) :: L) None) as Em.
    exists p, ((c, m) :: L), (S (n + S n2)), st2. split; [exact Kp|]. split; [exact Dp|]. split; [exact Wp|]. split; [constructor; [split; [exact Hs|intros HF; apply (Ti HF)]|exact El]|]. split; [exact Hh|]. split; [exact Hr|]. rewrite <- !app_assoc in R2. split; [exact R2|].
    rewrite E by (lia || assumption). unfold DocHead.dfinish. cbv zeta. rewrite Ep. cbn [andb]. fold m. replace (match stk with [] => true | top :: _ => negb (key_eqb full top) end) with true.
    2: { destruct stk as [|top stk']; [reflexivity|]. symmetry. apply negb_true_iff, Bool.not_true_is_false. intros Z. apply key_eqb_len in Z. rewrite (hkey_length _ _ HK), app_length in Z. apply Forall_inv in Hst. cbn [List.length] in Z. lia. }
    replace (n + S n2) with (S (n + n2)) by lia. unfold bind at 1. cbn [parse_aot]. unfold bind at 1. apply (aloop_up n2 (n + n2)) in E2; [|lia]. rewrite E2. unfold ret. cbn [app]. rewrite Em. reflexivity.
Qed.
Lemma all_tables : (forall tops path z w d, body tops path z w d -> Bd tops path z w d) /\ (forall tops path z w l, tables tops path z w l -> Ts tops path z w l) /\
  (forall tops path z k w v, table tops path z k w v -> Tb tops path z k w v) /\ (forall tops path z w ds, array_elements tops path z w ds -> Ar tops path z w ds).
Proof.
  apply document_mut; intros.
  - apply run_body; assumption.
  - apply run_tables_nil.
  - apply run_tables_cons; assumption.
  - apply run_table; assumption.
  - apply run_implicit; assumption.
  - apply run_array; assumption.
  - apply run_elements_nil.
  - apply run_elements_cons; assumption.
Qed.
(** * Documents *)
Lemma body_ready c pre z mk : heads z -> here pre z -> mk = List.length pre -> exists st, ready pre z st /\ body_loop sf 1 c (mkSt pre z mk) = (Ok c, st).
Proof.
  intros [->|(aot & Q & h & z1 & -> & H)] Hh Hm.
  - exists (mkSt pre [] mk). split; [|reflexivity]. split; [exact Hh|]. exists [], [], mk. rewrite app_nil_r. repeat split; [constructor|]. left. auto.
  - destruct (header_ne _ _ _ _ H) as (a & r & -> & Ha). rewrite <- app_assoc in *. cbn [app] in *. destruct a as [|x a].
    + exists (mkSt pre (chLBR :: r ++ z1) mk). split; [|reflexivity]. split; [exact Hh|]. exists [], (chLBR :: r ++ z1), mk. rewrite app_nil_r. repeat split; [constructor|]. right. split; [exact Hm || reflexivity|eauto].
    + exists (mkSt (pre ++ x :: a) (chLBR :: r ++ z1) (List.length pre)). split.
      * split; [exact Hh|]. exists (x :: a), (chLBR :: r ++ z1), (List.length pre). repeat split; [exact Ha|]. right. split; [exact Hm || reflexivity|eauto].
      * cbn [body_loop app]. unfold bind at 1, endM, at_end. cbn [p_rest]. unfold bind at 1, current, cur. cbn [p_rest]. replace (x =? chLBR)%N with false by (inversion Ha as [|? ? [->| ->] _]; reflexivity). cbn [orb].
        unfold bind at 1. change (x :: a ++ chLBR :: r ++ z1) with ((x :: a) ++ chLBR :: r ++ z1). rewrite item_header by exact Ha. reflexivity.
Qed.
Theorem document_run w d : document_means w d -> (sf = true -> w = src) -> (Fi -> fin [] w) -> exists c, parse_gen sf w = Ok (parsing_cont false c) /\ nh Fi false [] [] c d.
Proof.
  intros H. unfold document_means in H. remember [] as tops eqn:E1 in H at 1. remember [] as path eqn:E2 in H at 1. remember [] as z eqn:E3 in H at 1. destruct H as [tops path z u ps w l Hu Hl Nd]. subst. intros Hsrc Fn.
  rewrite app_nil_r in Hu. rewrite map_app in Nd. assert (Hz : stopsb [] []) by (left; reflexivity). assert (Hh0 : here [] (u ++ w)) by (intros Hs; split; [apply Hsrc, Hs|right; left; reflexivity]).
  destruct (lines_body w [] u ps Hu sf (empty_cont true) [] 0 (here_calm _ _ Hh0) grows_empty) as (c1 & mk1 & Hs0 & Hm & Nl & X1). { intros b k0 l0 g Eb. destruct b; discriminate. } { reflexivity. }
  assert (Hs1 : nh Fi false [] [] c1 (dict_of ps)). { apply lines_nh; [exists ps; auto| |rewrite <- dict_fst; eapply nodup_left; exact Nd]. intros HF; apply Nl; [|constructor]. pose proof (fin_left _ _ _ (Fn HF)) as X. rewrite app_nil_r in X. exact X. }
  cbn [app] in X1, Hm.
  pose proof (tables_head _ _ _ _ _ Hl Hz) as Hh. rewrite app_nil_r in Hh. destruct (body_ready c1 u w mk1 Hh (here_lines _ _ _ _ _ _ Hu [] Hh0) Hm) as (st & R & Eb).
  destruct (X1 c1 st (ex_intro _ 1 Eb)) as [n1 En1].
  destruct (proj1 (proj2 all_tables) _ _ _ _ _ Hl [] [] None None [] u st) as (steps & st' & R' & Rn & Hn & A); [reflexivity| |intros _; reflexivity|exact Hz|intros HF; eapply fin_right, Fn, HF|eapply nodup_right; exact Nd|rewrite app_nil_r; exact R|].
  { split; [reflexivity|]. split; [constructor|]. split; [intros s (sk & [] & _)|constructor]. }
  destruct (A [] c1 (dict_of ps)) as (c2 & [_ A2] & Sp2); [apply spot_here, Hs1|reflexivity|exact Nd|]. apply spot_here in Sp2.
  assert (E3 : tables_loop sf 1 c2 st' = (Ok c2, st')). { apply ready_end in R'. cbn [tables_loop]. unfold bind at 1, endM, at_end. rewrite R'. reflexivity. }
  destruct (tables_druns st steps st' Rn c1 c2 1 c2 st' Hn A2 E3) as [n2 En2].
  exists c2. split; [|exact Sp2].
  rewrite <- (parse_gen_indep sf (n1 + n2 + parse_fuel (u ++ w))) by lia. unfold parse_doc. unfold bind at 1. unfold start.
  apply (body_up n1 (n1 + n2 + parse_fuel (u ++ w))) in En1; [|lia]. rewrite En1. unfold bind at 1. apply (tables_up n2 (n1 + n2 + parse_fuel (u ++ w))) in En2; [|lia]. rewrite En2. reflexivity.
Qed.
End Run.
Theorem document_parsed_full (Fi : Prop) w d : document_means w d -> (Fi -> fin [] w) -> exists c, parse w = Ok (parsing_cont false c) /\ nh Fi false [] [] c d.
Proof. intros H Fn. apply (document_run Fi false (fun n => n) w); auto; discriminate. Qed.
Theorem document_strict sp w d : document_means w d -> even_headers sp w -> no_date_space w -> no_blank_comma w -> exists c, parse_gen true w = Ok c.
Proof. intros H He Hd Hb. destruct (document_run False true sp w (fun _ => He) (fun _ => conj Hd Hb) w d H) as (c & E & _); [reflexivity|intros []|]. eauto. Qed.
Theorem document_parsed w d : document_means w d -> exists c, parse w = Ok c /\ unwrap_cont c = Some d.
Proof. intros H. destruct (document_parsed_full False w d H) as (c & E & Hs & _); [intros []|]. exists (parsing_cont false c). split; [exact E|]. apply holds_after, Hs. Qed.
