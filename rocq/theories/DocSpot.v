(** DocSpot: tables filed below tables that have no header of their own (C40).  Where
    [F] holds, what has been filed so far is also neat (C43, C44). *)
From Verif Require Import Base Source Utils Items Container Arrays Parser Api Lemmas Consist OMap ContOps Wf Render ArrayLemmas ItemInd PyVal PyItem ItemConv Unwrap DumpText DumpCont DumpValue DumpHead DumpChain DumpDoc Lines Grammar Denote Document Neat DocLoop DocHead.
From Coq Require Import ZifyBool ZifyNat ZifyN.
Open Scope nat_scope.

Lemma nodup_end {A} (l : list A) x : NoDup l -> ~ In x l -> NoDup (l ++ [x]).
Proof. intros H N. apply NoDup_rev in H. rewrite <- (rev_involutive (l ++ [x])), rev_app_distr. apply NoDup_rev. cbn [rev app]. constructor; [|exact H]. intros X. apply N, in_rev, X. Qed.

Section Spot.
Variable F : Prop.
Variables (sf : bool) (sp : str -> str).
Local Notation skey_ok := (DocHead.skey_ok sf sp).
(** Nothing is re-indented where the parser reports. *)
Definition flush (t : trivia) : Prop := sf = true -> first_spaces (tr_indent t) = None.

(** * Neat parts *)
(** [it] is neat as the entry [sk] of the table at [path]. *)
Definition tneat (tops path : list str) (sk : skey) (it : item) (v : pyv) : Prop := F -> forall pfx, pmeans path pfx -> ntable tops path pfx sk it v.
(** The same for a container; [s]: it has no lines of its own. *)
Definition wr (s : bool) (tops path : list str) (c : container) (d : list (str * pyv)) : Prop :=
  F -> exists b1 b2 ps l, c_body c = b1 ++ b2 /\ (s = true -> b1 = []) /\ nlines [] b1 ps /\ d = dict_of ps ++ l /\ NoDup (map fst d) /\
    forall pfx, pmeans path pfx -> ntables tops path pfx b2 l /\ has_plain b2 = false.
Definition nh (s : bool) (tops path : list str) (c : container) (d : list (str * pyv)) : Prop := holds c d /\ wr s tops path c d.
Lemma nh_empty s tops path : nh s tops path (empty_cont true) [].
Proof. split; [apply holds_empty|]. intros _. exists [], [], [], []. repeat split; auto; constructor. Qed.
Lemma plain_app a b : has_plain (a ++ b) = has_plain a || has_plain b.
Proof. apply existsb_app. Qed.
Lemma ntable_plain tops path pfx sk it v e : ntable tops path pfx sk it v -> has_plain [(e, it)] = false.
Proof. intros []; reflexivity. Qed.
Lemma nh_add s tops path c r k it v : nh s tops path c r -> ~ In (k_key k) (map fst r) -> says it v -> tneat tops path k it v -> nh s tops path (add_new c k it) (r ++ [(k_key k, v)]).
Proof.
  intros [H W] Nk U T. split; [apply holds_add; assumption|]. intros HF. destruct (W HF) as (b1 & b2 & ps & l & Eb & Es & Nl & -> & Nd & Nt). exists b1, (b2 ++ [(Some k, set_name (k_key k) it)]), ps, (l ++ [(k_key k, v)]).
  split; [destruct c; cbn [add_new c_body] in *; rewrite Eb, <- app_assoc; reflexivity|]. split; [exact Es|]. split; [exact Nl|]. split; [rewrite <- app_assoc; reflexivity|]. split.
  - rewrite map_app. apply nodup_end; assumption.
  - intros pfx Hp. destruct (Nt pfx Hp) as [N1 N2]. pose proof (ntable_name _ _ _ _ _ _ (k_key k) (T HF pfx Hp)) as N3. split; [apply ntables_app; [exact N1|]; apply nt_cons; [exact N3|constructor]|].
    rewrite plain_app, N2. eapply ntable_plain, N3.
Qed.
(** A table without header. *)
Lemma hidden_neat tops path sk cc cm l : nh true tops (path ++ [k_key sk]) cc l -> l <> [] -> k_dotted sk = false -> tm_aot cm = false -> tm_super cm = Some true -> tm_disp cm = None ->
  name_means (k_orig sk) (k_key sk) -> ~ In (k_key sk) tops -> (F -> tidy (tm_trivia cm)) -> tneat tops path sk (ITable cc cm) (PDict l).
Proof.
  intros [_ W] Ne D A Su Di Nm Nt Ti HF pfx Hp. destruct (W HF) as (b1 & b2 & ps & l2 & Eb & Es & Nl & -> & Nd & Ht). rewrite (Es eq_refl) in *. cbn [app] in Eb. inversion Nl; subst ps. cbn [dict_of map app] in *.
  assert (Hk : key_means (Render.table_key cm sk pfx) (path ++ [k_key sk])) by (unfold Render.table_key; rewrite Di; apply key_means_snoc; assumption). destruct (Ht (Some (Render.table_key cm sk pfx)) Hk) as [Ht1 Ht2].
  apply nt_hidden; auto using tidy_head; [unfold table_is_super; rewrite Su; reflexivity| |rewrite Eb; exact Ht1]. rewrite Eb. exact Ht2.
Qed.
(** A table with its own header. *)
Lemma shown_neat tops path sk c m d : nh false tops (path ++ [k_key sk]) c d -> k_dotted sk = false -> tm_aot m = false -> tm_super m = Some false -> (exists t, tm_disp m = Some t /\ key_means t (path ++ [k_key sk])) -> name_means (k_orig sk) (k_key sk) ->
  (F -> tidy (tm_trivia m)) -> tneat tops path sk (ITable c m) (PDict d).
Proof.
  intros [_ W] D A Su (t & Di & Hk) Nm Ti HF pfx Hp. destruct (W HF) as (b1 & b2 & ps & l & Eb & _ & Nl & -> & Nd & Ht).
  assert (Hk' : key_means (Render.table_key m sk pfx) (path ++ [k_key sk])) by (unfold Render.table_key; rewrite Di; exact Hk).
  apply nt_shown with (b1 := b1) (b2 := b2); auto using tidy_head; [unfold shown, table_is_super; rewrite Su; reflexivity|intros X; contradiction|]. constructor; auto. apply Ht, Hk'.
Qed.

(** * Where a table goes *)
(** [it], read from the header p.ks…, holds [leaf] under the name [q] at the end of the names [ks]. *)
Inductive nested : list str -> skey -> item -> skey -> item -> Prop :=
  | nd_leaf q leaf : k_dotted q = false -> skey_ok q -> nested [] q leaf q leaf
  | nd_in ks p im sk1 it1 q leaf : k_dotted p = false -> tm_aot im = false -> tm_super im = Some true -> tm_name im <> None -> tm_disp im = None -> skey_ok p -> (F -> tidy (tm_trivia im)) /\ flush (tm_trivia im) ->
      nested ks sk1 it1 q leaf -> nested (k_key p :: ks) p (ITable (singleton sk1 it1) im) q leaf.
Definition named (it : item) : Prop := match it with ITable _ m => tm_name m <> None | IAoT _ n _ _ => n <> None | _ => False end.
Lemma nested_leaf ks p it q leaf : nested ks p it q leaf -> k_dotted q = false /\ skey_ok q.
Proof. induction 1; auto. Qed.
Lemma nested_split a : forall b p it q leaf, nested (a ++ b) p it q leaf -> exists p1 it1, nested a p it p1 it1 /\ nested b p1 it1 q leaf.
Proof.
  induction a as [|k a IH]; intros b p it q leaf H.
  - exists p, it. split; [|exact H]. inversion H; subst; constructor; assumption.
  - cbn [app] in H. inversion H as [|ks0 p0 im sk1 it1 q0 leaf0 D Ai Si Ni Di Nm Ti N Q1 Q2 Q3]; subst. destruct (IH _ _ _ _ _ N) as (p1 & it1' & N1 & N2). exists p1, it1'. split; [constructor; assumption|exact N2].
Qed.
Lemma nested_head ks p it q leaf : nested ks p it q leaf -> k_key p = hd (k_key q) ks.
Proof. intros []; reflexivity. Qed.
(** [c], at [path], has, at the end of the path [fr], a table satisfying [B]; [fr] lists the names, with what precedes each of them. *)
Inductive at_spot (tops : list str) (B : bool -> container -> Prop) : bool -> list str -> list (list (str * pyv) * str) -> container -> Prop :=
  | as_here s path c : B s c -> at_spot tops B s path [] c
  | as_down s path c0 r0 sk cc cm fr : nh s tops path c0 r0 -> ~ In (k_key sk) (map fst r0) -> k_dotted sk = false -> tm_super cm = Some true -> tm_name cm <> None -> tm_aot cm = false -> tm_disp cm = None ->
      skey_ok sk -> ~ In (k_key sk) tops -> (F -> tidy (tm_trivia cm)) /\ flush (tm_trivia cm) -> at_spot tops B true (path ++ [k_key sk]) fr cc ->
      at_spot tops B s path ((r0, k_key sk) :: fr) (add_new c0 sk (ITable cc cm)).
Lemma at_spot_mono tops (B B' : bool -> container -> Prop) s path fr c : (forall s c, B s c -> B' s c) -> at_spot tops B s path fr c -> at_spot tops B' s path fr c.
Proof. intros H. induction 1; constructor; auto. Qed.
Lemma at_spot_join tops B fr2 s path fr1 c : at_spot tops (fun s c => at_spot tops B s (path ++ map snd fr1) fr2 c) s path fr1 c -> at_spot tops B s path (fr1 ++ fr2) c.
Proof.
  revert s path c. induction fr1 as [|x fr1 IH]; intros s path c H; inversion H as [? ? ? H0|? ? c0 r0 sk cc cm fr' H1 H2 H3 H4 H5 H6 H7 H8 H9 H10 H11]; subst; [rewrite app_nil_r in H0; exact H0|].
  cbn [app map snd] in *. constructor; auto. apply IH. eapply at_spot_mono; [|exact H11]. intros s1 c1 X. cbv beta in X |- *. rewrite <- app_assoc. exact X.
Qed.
Lemma at_spot_cut tops B fr2 s path fr1 c : at_spot tops B s path (fr1 ++ fr2) c -> at_spot tops (fun s c => at_spot tops B s (path ++ map snd fr1) fr2 c) s path fr1 c.
Proof.
  revert s path c. induction fr1 as [|x fr1 IH]; intros s path c H; [constructor; cbn [map]; rewrite app_nil_r; exact H|].
  cbn [app] in H. inversion H as [? ? ? H0|? ? c0 r0 sk cc cm fr' H1 H2 H3 H4 H5 H6 H7 H8 H9 H10 H11]; subst. cbn [map snd]. constructor; auto. apply IH in H11. eapply at_spot_mono; [|exact H11].
  intros s1 c1 X. cbv beta in X |- *. rewrite <- app_assoc in X. exact X.
Qed.
(** Entry [k] is a table, and changing its indentation does not matter. *)
Definition stable (B : bool -> container -> Prop) (k : str) : Prop := forall s c, B s c -> exists i bk v, map_get k (c_map c) = Some (One i) /\ nth_error (c_body c) i = Some (bk, v) /\ is_table_or_aot v = true /\
  (sf = false -> forall ind, (F -> Grammar.blanks ind) -> B s (set_body (list_set i (bk, item_indent_insert ind v) (c_body c)) c)).
Lemma add_body c k it : named it -> c_body (add_new c k it) = c_body c ++ [(Some k, it)].
Proof. destruct c. intros H. cbn [add_new c_body]. rewrite name_same; [reflexivity|]. destruct it; auto. Qed.
Lemma add_again c k it it' : named it -> named it' -> is_table it = is_table it' ->
  set_body (list_set (List.length (c_body c)) (Some k, it') (c_body (add_new c k it))) (add_new c k it) = add_new c k it'.
Proof.
  intros H H' E. rewrite add_body by exact H. rewrite list_set_end. destruct c as [body m p tks d]. cbn [add_new set_body c_body]. rewrite E, name_same; [reflexivity|]. destruct it'; auto.
Qed.
Lemma add_nth c k it : named it -> nth_error (c_body (add_new c k it)) (List.length (c_body c)) = Some (Some k, it).
Proof. intros H. rewrite add_body by exact H. apply nth_end. Qed.
Lemma at_stable tops B s0 path fr k : stable B k -> forall c, at_spot tops B s0 path fr c -> exists i bk v, map_get (hd k (map snd fr)) (c_map c) = Some (One i) /\ nth_error (c_body c) i = Some (bk, v) /\ is_table_or_aot v = true /\
  (sf = false -> forall ind, (F -> Grammar.blanks ind) -> at_spot tops B s0 path fr (set_body (list_set i (bk, item_indent_insert ind v) (c_body c)) c)).
Proof.
  intros H c Hc. inversion Hc as [? ? ? H0|? ? c0 r0 sk cc cm fr' H1 H2 H3 H4 H5 H6 H7 H8 H9 H10 H11]; subst.
  - destruct (H _ c H0) as (i & bk & v & A & A1 & A2 & A3). exists i, bk, v. split; [exact A|]. split; [exact A1|]. split; [exact A2|]. intros Hf ind Hi. constructor. apply (A3 Hf), Hi.
  - cbn [map snd hd]. exists (List.length (c_body c0)), (Some sk), (ITable cc cm). split; [apply add_map|]. split; [apply add_nth; exact H5|]. split; [reflexivity|]. intros Hf ind Hi.
    unfold item_indent_insert. cbn [is_wsitem set_trivia item_trivia].
    rewrite add_again by (auto; cbn [named]; destruct cm; exact H5). destruct H10 as [H10 _]. constructor; auto; destruct cm; try assumption. split; [|unfold flush; rewrite Hf; discriminate]. intros HF. cbn in H10 |- *. apply tidy_indent; [|apply H10, HF]. apply insert_blanks; [apply Hi, HF|apply H10, HF].
Qed.
Lemma stable_at tops B path fr k : stable B k -> stable (fun s c => at_spot tops B s path fr c) (hd k (map snd fr)).
Proof. intros H s c Hc. apply (at_stable tops B s path fr k H c Hc). Qed.
Lemma last_pos (l : list entry) x : is_last (List.length l) (l ++ [x]) = true.
Proof. unfold is_last. rewrite app_length. cbn [List.length]. apply Nat.eqb_eq. lia. Qed.
Lemma same_orig a b : skey_ok a -> skey_ok b -> k_key a = k_key b -> sf && negb (str_eqb (k_orig a) (k_orig b)) = false.
Proof. intros [_ A] [_ B] E. apply Bool.not_true_is_false. intros X. apply andb_true_iff in X as [X Y]. rewrite (A X), (B X), E, str_eqb_refl in Y. discriminate. Qed.
Definition lands (B B' : bool -> container -> Prop) (q : skey) (leaf : item) : Prop :=
  forall s c, B s c -> exists c', B' s c' /\ forall n val, 3 <= n -> append n Own sf c (Some (KSingle q)) leaf val = Ok c'.
Lemma descend tops B B' : forall fr s path p it q leaf c, nested (map snd fr) p it q leaf -> stable B' (k_key q) -> lands B B' q leaf -> at_spot tops B s path fr c ->
  exists c', at_spot tops B' s path fr c' /\ forall n val, 3 * List.length fr + 3 <= n -> append n Own sf c (Some (KSingle p)) it val = Ok c'.
Proof.
  induction fr as [|[r0 k0] fr IH]; intros s path p it q leaf c Hn St Ld Hc.
  - inversion Hn; subst. inversion Hc as [? ? ? Hb|]; subst. destruct (Ld s c Hb) as (c' & H' & E). exists c'. split; [constructor; exact H'|]. intros n val Hle. apply E. lia.
  - inversion Hc as [|? ? c0 r1 sk cc cm fr' H1 H2 H3 H4 H5 H6 H7 H8 H9 H10 H11]; subst. cbn [map snd] in Hn. inversion Hn as [|ks p0 im sk1 it1 q0 leaf0 D Ai Si Ni Di Nm Ti N E1 E2 E3]; subst.
    destruct (IH true (path ++ [k_key sk]) sk1 it1 q leaf cc N St Ld H11) as (cc' & A' & E).
    destruct (at_stable tops B' true (path ++ [k_key sk]) fr (k_key q) St cc' A') as (i & bk & v & M & Nt & Tv & Re). rewrite <- (nested_head _ _ _ _ _ N) in M.
    assert (X : exists cc2, at_spot tops B' true (path ++ [k_key sk]) fr cc2 /\ forall n, 3 * List.length fr + 4 <= n -> table_append n Own sf cc cm (Some (KSingle sk1)) it1 = Ok (cc2, cm)).
    { destruct (first_spaces (tr_indent (tm_trivia cm))) as [ind|] eqn:Ef.
      - exists (set_body (list_set i (bk, item_indent_insert ind v) (c_body cc')) cc'). assert (Hf : sf = false). { apply Bool.not_true_is_false. intros Hs. destruct H10 as [_ H10]. rewrite (H10 Hs) in Ef. discriminate. }
        split; [apply (Re Hf); intros HF; eapply spaces_blanks, Ef|]. intros n Hle. destruct n as [|n]; [lia|]. cbn [table_append]. rewrite E by lia.
        cbn [rbind option_map key_parts]. rewrite M, Ef. cbn [is_own negb]. rewrite Nt, Hf. destruct v; try discriminate; reflexivity.
      - exists cc'. split; [exact A'|]. intros n Hle. destruct n as [|n]; [lia|]. cbn [table_append]. rewrite E by lia. cbn [rbind option_map key_parts]. rewrite M, Ef. reflexivity. }
    destruct X as (cc2 & A2 & E2'). exists (add_new c0 sk (ITable cc2 cm)). split; [rewrite ?E1; constructor; assumption|]. intros n val Hle. cbn [List.length] in Hle. destruct n as [|n]; [lia|].
    pose proof (add_map c0 sk (ITable cc cm)) as Am. pose proof (add_nth c0 sk (ITable cc cm) H5) as An. pose proof H1 as ((t0 & (Pc & _) & _) & _).
    cbn [append kstr]. rewrite name_same by exact Ni. rewrite pre_parsed by (destruct c0; exact Pc). destruct n as [|n]; [lia|]. cbn [contains]. rewrite E1, Am. cbn [rbind negb].
    destruct c0 as [body m pp tks d]. cbn [c_parsed c_body] in *. subst pp. unfold add_new in Am, An |- *. cbn [c_map c_body] in *. rewrite !name_same in * by exact H5. rewrite Am, An. cbn [is_table_or_aot is_table is_aot orb negb]. rewrite Ai. cbn [is_aot item_is_super].
    assert (X1 : table_is_super cc cm = true) by (unfold table_is_super; rewrite H4; reflexivity). assert (X2 : table_is_super (singleton sk1 it1) im = true) by (unfold table_is_super; rewrite Si; reflexivity).
    rewrite X1, X2, D, H3. cbn [orb]. destruct (tks ++ [k_key sk]) as [|a tl] eqn:Et; [destruct tks; discriminate|]. rewrite <- Et, last_last, str_eqb_refl. cbn [rbind negb]. rewrite last_pos, (same_orig sk p H8 Nm (eq_sym E1)). cbn [negb andb]. rewrite !andb_false_r. cbn [is_own singleton c_body fold_res fst snd option_map].
    rewrite E2' by lia. cbn [rbind fst snd]. rewrite list_set_end. reflexivity.
Qed.
(** * Places to put the next table *)
Definition spot (tops P : list str) (fr : list (list (str * pyv) * str)) (c : container) (r : list (str * pyv)) : Prop :=
  at_spot tops (fun s c => nh s tops (P ++ map snd fr) c r) false P fr c \/
  (r = [] /\ exists fr1 r0 k0 ks, fr = fr1 ++ (r0, k0) :: map (pair []) ks /\ Forall (fun k => ~ In k tops) (k0 :: ks) /\
    at_spot tops (fun s c => nh s tops (P ++ map snd fr1) c r0 /\ ~ In k0 (map fst r0)) false P fr1 c).
Lemma spot_here tops P c r : spot tops P [] c r <-> nh false tops P c r.
Proof.
  split.
  - intros [H|(_ & fr1 & r0 & k0 & ks & E & _)]; [inversion H as [? ? ? H0|]; subst; cbn [map] in H0; rewrite app_nil_r in H0; exact H0|]. destruct fr1; discriminate.
  - intros H. left. constructor. cbn [map]. rewrite app_nil_r. exact H.
Qed.
Lemma spot_open tops P fr c r k : spot tops P fr c r -> ~ In k (map fst r) -> ~ In k tops -> spot tops P (fr ++ [(r, k)]) c [].
Proof.
  intros [H|(-> & fr1 & r0 & k0 & ks & -> & Nt & H)] N N'; right; (split; [reflexivity|]).
  - exists fr, r, k, []. split; [reflexivity|]. split; [constructor; [exact N'|constructor]|]. eapply at_spot_mono; [|exact H]. auto.
  - exists fr1, r0, k0, (ks ++ [k]). split; [rewrite map_app, <- app_assoc; reflexivity|]. split; [|exact H]. apply (Forall_app _ (k0 :: ks) [k]). split; [exact Nt|constructor; [exact N'|constructor]].
Qed.
Lemma spot_close tops P fr c r k l : spot tops P (fr ++ [(r, k)]) c l -> l <> [] -> spot tops P fr c (r ++ [(k, PDict l)]).
Proof.
  intros [H|(-> & _)] N; [|congruence]. left. apply at_spot_cut in H. eapply at_spot_mono; [|exact H]. clear - N. intros s c H. cbv beta in H. inversion H as [|? ? c0 r0 sk cc cm fr' H1 H2 H3 H4 H5 H6 H7 H8 H9 H10 H11]; subst.
  inversion H11 as [? ? ? Hb|]; subst. rewrite map_app in Hb. cbn [map snd] in Hb. rewrite app_assoc in Hb. pose proof Hb as [Hs _].
  destruct H8 as [H8 _], H10 as [H10 _]. apply nh_add; auto; [apply holds_says; assumption|]. apply hidden_neat; assumption.
Qed.
Lemma singleton_new sk it : named it -> singleton sk it = add_new (empty_cont true) sk it.
Proof. intros H. unfold singleton, add_new, empty_cont. rewrite name_same by (destruct it; auto). cbn [app List.length map_set]. destruct (is_table it); reflexivity. Qed.
Lemma fresh_at tops (B : bool -> container -> Prop) : forall ks s path p it q leaf c r0 k0, nested (k0 :: ks) p it q leaf -> B true (singleton q leaf) -> nh s tops path c r0 -> ~ In k0 (map fst r0) -> Forall (fun k => ~ In k tops) (k0 :: ks) ->
  at_spot tops B s path ((r0, k0) :: map (pair []) ks) (add_new c p it).
Proof.
  induction ks as [|k ks IH]; intros s path p it q leaf c r0 k0 H Hb Hs Hn Hf; inversion H as [|ks0 p0 im sk1 it1 q0 leaf0 D Ai Si Ni Di Nm Ti N E1 E2 E3]; subst; apply Forall_cons_iff in Hf as [Hf1 Hf]; (constructor; [assumption..|]).
  - inversion N; subst. constructor. exact Hb.
  - cbn [map]. rewrite singleton_new by (inversion N; assumption). apply (IH _ _ _ _ _ _ _ _ _ N Hb); [apply nh_empty|intros []|exact Hf].
Qed.
Lemma spot_put tops P B' fr c r p it q leaf : spot tops P fr c r -> nested (map snd fr) p it q leaf -> named leaf -> ~ In (k_key q) (map fst r) -> stable B' (k_key q) ->
  (forall s c, nh s tops (P ++ map snd fr) c r -> B' s (add_new c q leaf)) ->
  exists c', at_spot tops B' false P fr c' /\ forall n val, 3 * List.length fr + 3 <= n -> append n Own sf c (Some (KSingle p)) it val = Ok c'.
Proof.
  intros Hc Hn Nl Nk St Hb. destruct Hc as [H|(-> & fr1 & r0 & k0 & ks & -> & Nt & H)].
  - apply (descend tops (fun s c => nh s tops (P ++ map snd fr) c r) B' fr false P p it q leaf c); auto. intros s cb Hs. exists (add_new cb q leaf). split; [apply Hb, Hs|]. intros n val Hle. destruct n as [|[|n]]; try lia. apply (append_hold n Own cb r); [apply Hs|assumption].
  - rewrite map_app in Hn. cbn [map snd] in Hn. rewrite map_map, map_id in Hn. destruct (nested_split _ _ _ _ _ _ Hn) as (p1 & it1 & N1 & N2).
    assert (Kp : k_key p1 = k0) by (apply nested_head in N2; exact N2). assert (Bl : B' true (singleton q leaf)). { rewrite singleton_new by exact Nl. apply Hb, nh_empty. }
    destruct (descend tops (fun s c => nh s tops (P ++ map snd fr1) c r0 /\ ~ In k0 (map fst r0)) (fun s c => at_spot tops B' s (P ++ map snd fr1) ((r0, k0) :: map (pair []) ks) c) fr1 false P p it p1 it1 c N1) as (c' & A & E).
    { pose proof (stable_at tops B' (P ++ map snd fr1) ((r0, k0) :: map (pair []) ks) (k_key q) St) as X. cbn [map snd hd] in X. rewrite Kp. exact X. }
    { intros s cb [Hs Hk]. exists (add_new cb p1 it1). split; [eapply fresh_at; eauto|]. intros n val Hle. destruct n as [|[|n]]; try lia. apply (append_hold n Own cb r0); [apply Hs|]. rewrite Kp. exact Hk. }
    { exact H. }
    exists c'. split; [apply at_spot_join, A|]. intros n val Hle. apply E. rewrite app_length in Hle. lia.
Qed.
(** * Steps *)
Definition dstep : Type := (skey * item)%type.
Definition dadds (l : list dstep) (c c' : container) : Prop :=
  fold_res (fun c (s : dstep) => table_raw_append sf c (Some (KSingle (fst s))) (snd s)) l c = Ok c' /\
  fold_res (fun c (s : dstep) => cappend sf c (Some (KSingle (fst s))) (snd s)) l c = Ok c'.
Lemma fold_res_app {A B} (f : A -> B -> res A) l1 l2 a : fold_res f (l1 ++ l2) a = rbind (fold_res f l1 a) (fold_res f l2).
Proof. revert a. induction l1 as [|x l1 IH]; intros a; [reflexivity|]. cbn [app fold_res]. destruct (f a x); [apply IH|reflexivity]. Qed.
Lemma dadds_app l1 l2 c c1 c2 : dadds l1 c c1 -> dadds l2 c1 c2 -> dadds (l1 ++ l2) c c2.
Proof. intros [A B] [A' B']. split; rewrite fold_res_app; [rewrite A; exact A'|rewrite B; exact B']. Qed.
Lemma nested_size ks p it q leaf : nested ks p it q leaf -> List.length ks <= isize it.
Proof. induction 1 as [|ks p im sk1 it1 q leaf D Ai Si Ni Di Nm Ti N IH]; cbn [List.length isize singleton csize fold_right]; lia. Qed.
Lemma put_adds tops P B' fr p it q leaf c c' : nested (map snd fr) p it q leaf -> stable B' (k_key q) -> at_spot tops B' false P fr c' ->
  (forall n val, 3 * List.length fr + 3 <= n -> append n Own sf c (Some (KSingle p)) it val = Ok c') -> dadds [(p, it)] c c'.
Proof.
  intros Hn St A E. pose proof (nested_size _ _ _ _ _ Hn) as Sz. rewrite map_length in Sz. destruct (at_stable tops B' false P fr _ St c' A) as (i & bk & v & M & _). rewrite <- (nested_head _ _ _ _ _ Hn) in M.
  assert (Fu : 3 * List.length fr + 3 <= app_fuel c (Some (KSingle p)) it) by (unfold app_fuel; cbn [key_parts List.length]; lia).
  split; cbn [fold_res fst snd].
  - unfold table_raw_append. rewrite E by exact Fu. cbn [rbind option_map key_parts]. rewrite M. reflexivity.
  - unfold cappend. rewrite E by exact Fu. reflexivity.
Qed.
(** * A table *)
Definition has_table (tops path : list str) (r : list (str * pyv)) (k : str) (v : pyv) (s : bool) (c : container) : Prop :=
  exists c0 q leaf, c = add_new c0 q leaf /\ k_key q = k /\ nh s tops path c0 r /\ ~ In k (map fst r) /\ named leaf /\ says leaf v /\ tneat tops path q leaf v.
Lemma indent_says ind it v : says it v -> says (item_indent_insert ind it) v.
Proof. intros H. unfold item_indent_insert. destruct (is_wsitem it); [exact H|apply says_trivia, H]. Qed.
Lemma indent_named ind it : named it -> named (item_indent_insert ind it) /\ is_table it = is_table (item_indent_insert ind it) /\ is_table_or_aot it = true.
Proof. destruct it as [ | | | | | |c m|l n p t]; cbn [named]; intros H; try contradiction; (split; [|split; reflexivity]); [destruct m|]; exact H. Qed.
Lemma has_stable tops path r k v : stable (has_table tops path r k v) k.
Proof.
  intros s c (c0 & q & leaf & -> & <- & Hs & Nk & Nl & U & T). exists (List.length (c_body c0)), (Some q), leaf. split; [apply add_map|]. split; [apply add_nth, Nl|]. split; [apply (indent_named [] leaf Nl)|]. intros _ ind Hi.
  destruct (indent_named ind leaf Nl) as (N1 & N2 & _). rewrite add_again by assumption. exists c0, q, (item_indent_insert ind leaf). split; [reflexivity|]. split; [reflexivity|]. split; [exact Hs|]. split; [exact Nk|]. split; [exact N1|].
  split; [apply indent_says, U|]. intros HF pfx Hp. apply ntable_indent; [apply Hi, HF|apply T; assumption].
Qed.
Lemma table_put tops P fr c r p it q leaf v : spot tops P fr c r -> nested (map snd fr) p it q leaf -> named leaf -> ~ In (k_key q) (map fst r) -> says leaf v -> tneat tops (P ++ map snd fr) q leaf v ->
  exists c', dadds [(p, it)] c c' /\ spot tops P fr c' (r ++ [(k_key q, v)]).
Proof.
  intros Hc Hn Nl Nk U T. destruct (spot_put tops P (has_table tops (P ++ map snd fr) r (k_key q) v) fr c r p it q leaf Hc Hn Nl Nk (has_stable _ _ _ _ _)) as (c' & A & E).
  { intros s cb Hs. exists cb, q, leaf. repeat (split; [reflexivity || assumption|]). exact T. }
  exists c'. split; [eapply put_adds; eauto using has_stable|]. left. eapply at_spot_mono; [|exact A]. intros s cb (c0 & q0 & leaf0 & -> & <- & Hs & Nk0 & Nl0 & U0 & T0). apply nh_add; assumption.
Qed.
(** * The elements of an array of tables *)
Definition both (c : container) (d : list (str * pyv)) : Prop := unwrap_cont c = Some d /\ unwrap_cont (parsing_cont false c) = Some d.
Lemma holds_both c d : holds c d -> both c d.
Proof. intros H. split; [apply holds_unwrap, H|apply holds_after, H]. Qed.
Definition elems_say (L : list (container * tmeta)) (ds : list (list (str * pyv))) : Prop := Forall2 both (map fst L) ds.
Lemma elems_says L ds nm p t : elems_say L ds -> says (IAoT L nm p t) (PList (map PDict ds)).
Proof.
  intros H. assert (X : forall f : container -> container, (forall c d, both c d -> unwrap_cont (f c) = Some d) -> seqopt (map (fun x : container * tmeta => option_map PDict (unwrap_cont (f (fst x)))) L) = Some (map PDict ds)).
  { intros f Hf. unfold elems_say in H. remember (map fst L) as M eqn:E. revert L E. induction H as [|c d M ds B Fd IH]; intros [|x L] E; try discriminate; [reflexivity|]. injection E as -> ->. cbn [map seqopt]. rewrite (Hf _ _ B), (IH L eq_refl). reflexivity. }
  split; [rewrite unwrap_aot, (X (fun c => c)); [reflexivity|intros c d [B _]; exact B]|]. cbn [parsing_item]. rewrite unwrap_aot, map_map.
  rewrite (map_ext _ (fun x => option_map PDict (unwrap_cont (parsing_cont false (fst x))))) by (intros []; reflexivity). rewrite (X (parsing_cont false)); [reflexivity|intros c d [_ B]; exact B].
Qed.
Definition elem1 (tops path : list str) (x : container * tmeta) (d : list (str * pyv)) : Prop := nh false tops path (fst x) d /\ (F -> tidy (tm_trivia (snd x))).
Definition elems (tops path : list str) (L : list (container * tmeta)) (ds : list (list (str * pyv))) : Prop := Forall2 (elem1 tops path) L ds.
Lemma elems_both tops path L ds : elems tops path L ds -> elems_say L ds.
Proof. induction 1 as [|x d L ds [H _] _ IH]; constructor; [apply holds_both, H|exact IH]. Qed.
Lemma elems_neat tops path key L ds : F -> key_means key path -> elems tops path L ds -> nelems tops path key L ds.
Proof.
  intros HF Hk H. induction H as [|[c m] d L ds [[_ W] T] _ IH]; [constructor|]. destruct (W HF) as (b1 & b2 & ps & l & Eb & _ & Nl & -> & Nd & Ht). econstructor; [apply tidy_head, T, HF|exact Hk|exact Eb| |exact IH]. constructor; [exact Nl|apply Ht; exact Hk|exact Nd].
Qed.
Definition tops_in (tops path : list str) (k : str) : list str := match path with [] => k :: tops | _ => tops end.
Lemma array_neat tops path sk L ds n p t : elems (tops_in tops path (k_key sk)) (path ++ [k_key sk]) L ds -> ds <> [] -> k_dotted sk = false -> name_means (k_orig sk) (k_key sk) -> tneat tops path sk (IAoT L n p t) (PList (map PDict ds)).
Proof. intros H Ne D Nm HF pfx Hp. apply nt_aot; [exact D|exact Nm|exact Ne|]. apply elems_neat; [exact HF|apply key_means_snoc; assumption|exact H]. Qed.
Lemma aot_append_one l t x : exists x', aot_append l true t x = l ++ [x'] /\ fst x' = fst x /\ (Grammar.blanks (tr_indent t) -> tidy (tm_trivia (snd x)) -> tidy (tm_trivia (snd x'))) /\ (first_spaces (tr_indent t) = None -> x' = x).
Proof.
  unfold aot_append, aot_insert. set (x1 := match first_spaces _ with Some _ => _ | None => _ end). cbv zeta.
  assert (H1 : fst x1 = fst x /\ (Grammar.blanks (tr_indent t) -> tidy (tm_trivia (snd x)) -> tidy (tm_trivia (snd x1))) /\ (first_spaces (tr_indent t) = None -> x1 = x)).
  { subst x1. destruct (first_spaces _) as [ind|] eqn:E; [|auto]. destruct x as [c [tr ao su nm di]]. cbn. split; [reflexivity|]. split; [|discriminate]. intros Hb Ht. apply tidy_indent; [|exact Ht].
    apply insert_blanks; [eapply spaces_blanks; exact E|apply Ht]. }
  clearbody x1.
  assert (Hi : aot_index (List.length l) (Z.of_nat (List.length l)) = List.length l).
  { unfold aot_index. destruct (Z.ltb_spec (Z.of_nat (List.length l)) 0) as [C|C]; [clear -C; lia|]. destruct (Z.ltb_spec (Z.of_nat (List.length l)) 0) as [D|D]; [clear -D; lia|].
    destruct (Z.leb_spec (Z.of_nat (List.length l)) (Z.of_nat (List.length l))) as [D'|D']; [reflexivity|clear -D'; lia]. }
  rewrite !Hi. exists x1. split; [|exact H1]. unfold list_insert. rewrite firstn_all, skipn_all. reflexivity.
Qed.
Lemma aot_make_same ts n : aot_make ts n true = IAoT ts n true aot_trivia.
Proof.
  unfold aot_make. f_equal. assert (G : forall ts l0, fold_left (fun l x => aot_append l true aot_trivia x) ts l0 = l0 ++ ts).
  { clear. induction ts as [|x ts IH]; intros l0; cbn [fold_left]; [rewrite app_nil_r; reflexivity|]. destruct (aot_append_one l0 aot_trivia x) as (x' & E & _ & _ & Ex). rewrite E, (Ex eq_refl), IH, <- app_assoc. reflexivity. }
  apply G.
Qed.
(** * The elements of an array of tables, one at a time *)
Definition has_array (tops path : list str) (r : list (str * pyv)) (k : str) (ds : list (list (str * pyv))) (s : bool) (c : container) : Prop :=
  exists c0 sk L nm t, c = add_new c0 sk (IAoT L (Some nm) true t) /\ k_key sk = k /\ nh s tops path c0 r /\ ~ In k (map fst r) /\ k_dotted sk = false /\ skey_ok sk /\ (F -> Grammar.blanks (tr_indent t)) /\
    elems (tops_in tops path k) (path ++ [k]) L ds.
Lemma array_stable tops path r k ds : stable (has_array tops path r k ds) k.
Proof.
  intros s c (c0 & sk & L & nm & t & -> & <- & Hs & Nk & Kd & Nm & Bt & El). exists (List.length (c_body c0)), (Some sk), (IAoT L (Some nm) true t). split; [apply add_map|]. split; [apply add_nth; discriminate|]. split; [reflexivity|].
  intros _ ind Hi. unfold item_indent_insert. cbn [is_wsitem set_trivia item_trivia]. rewrite add_again by (try discriminate; reflexivity). exists c0, sk, L, nm. eexists. split; [reflexivity|]. repeat (split; [reflexivity || assumption|]).
  split; [|exact El]. intros HF. apply insert_blanks; [apply Hi, HF|apply Bt, HF].
Qed.
Lemma array_nh tops path r k ds s c : ds <> [] -> has_array tops path r k ds s c -> nh s tops path c (r ++ [(k, PList (map PDict ds))]).
Proof.
  intros Ne (c0 & sk & L & nm & t & -> & <- & Hs & Nk & Kd & Nm & Bt & El). apply nh_add; auto; [eapply elems_says, elems_both, El|]. destruct Nm as [Nm _]. apply array_neat; assumption.
Qed.
Lemma array_lands tops path r k ds q x nm t d : k_key q = k -> elem1 (tops_in tops path k) (path ++ [k]) x d -> skey_ok q -> lands (has_array tops path r k ds) (has_array tops path r k (ds ++ [d])) q (IAoT [x] (Some nm) true t).
Proof.
  intros Kq [U V] Hq s c (c0 & sk & L & nm0 & t0 & -> & Ks & Hs & Nk & Kd & Nm & Bt & El). destruct (aot_append_one L t0 x) as (x' & Ea & Ef & Et & _). exists (add_new c0 sk (IAoT (aot_append L true t0 x) (Some nm0) true t0)). split.
  - exists c0, sk, (aot_append L true t0 x), nm0, t0. repeat (split; [reflexivity || assumption|]). rewrite Ea. apply Forall2_app; [exact El|]. constructor; [|constructor]. split; [rewrite Ef; exact U|]. intros HF. apply Et; [apply Bt, HF|apply V, HF].
  - intros n val Hle. destruct n as [|[|n]]; try lia. pose proof (add_map c0 sk (IAoT L (Some nm0) true t0)) as Am. pose proof (add_nth c0 sk (IAoT L (Some nm0) true t0) ltac:(discriminate)) as An. pose proof Hs as ((tr & (Pc & _) & _) & _).
    cbn [append kstr]. rewrite name_same by discriminate. rewrite pre_parsed by (destruct c0; exact Pc). cbn [contains]. rewrite Kq, <- Ks, Am. cbn [rbind negb].
    destruct c0 as [body m pp tks dd]. cbn [c_parsed c_body] in *. subst pp. unfold add_new in Am, An |- *. cbn [c_map c_body] in *. rewrite !name_same in * by discriminate. rewrite Am, An. cbn [is_shared]. rewrite last_pos, (same_orig sk q Nm Hq) by congruence. cbn [negb]. rewrite andb_false_r. cbn [fold_left is_table]. rewrite list_set_end. reflexivity.
Qed.
(** Elements [l] of the array [k] have been put at the spot. *)
Definition array_spot (tops P : list str) (fr : list (list (str * pyv) * str)) (c : container) (r : list (str * pyv)) (k : str) (l : list (list (str * pyv))) : Prop :=
  (l = [] /\ spot tops P fr c r /\ ~ In k (map fst r)) \/ at_spot tops (has_array tops (P ++ map snd fr) r k l) false P fr c.
Lemma array_done tops P fr c r k l : array_spot tops P fr c r k l -> l <> [] -> spot tops P fr c (r ++ [(k, PList (map PDict l))]).
Proof. intros [(-> & _)|H] N; [congruence|]. left. eapply at_spot_mono; [|exact H]. intros s c0. apply array_nh, N. Qed.
Lemma array_put tops P fr c r l p it q x nm d : array_spot tops P fr c r (k_key q) l -> nested (map snd fr) p it q (IAoT [x] (Some nm) true aot_trivia) -> elem1 (tops_in tops (P ++ map snd fr) (k_key q)) ((P ++ map snd fr) ++ [k_key q]) x d ->
  exists c', dadds [(p, it)] c c' /\ array_spot tops P fr c' r (k_key q) (l ++ [d]).
Proof.
  intros Hc Hn U. destruct (nested_leaf _ _ _ _ _ Hn) as [Kd Nm]. destruct Hc as [(-> & Hc & Nk)|Hc].
  - destruct (spot_put tops P (has_array tops (P ++ map snd fr) r (k_key q) ([] ++ [d])) fr c r p it q _ Hc Hn ltac:(discriminate) Nk (array_stable _ _ _ _ _)) as (c' & A & E).
    { intros s cb Hs. exists cb, q, [x], nm, aot_trivia. repeat (split; [reflexivity || assumption|]). split; [intros _; constructor|]. constructor; [exact U|constructor]. }
    exists c'. split; [eapply put_adds; eauto using array_stable|]. right. exact A.
  - destruct (descend tops _ (has_array tops (P ++ map snd fr) r (k_key q) (l ++ [d])) fr false P p it q _ c Hn (array_stable _ _ _ _ _) (array_lands tops (P ++ map snd fr) r (k_key q) l q x nm aot_trivia d eq_refl U Nm) Hc) as (c' & A & E).
    exists c'. split; [eapply put_adds; eauto using array_stable|]. right. exact A.
Qed.
End Spot.
