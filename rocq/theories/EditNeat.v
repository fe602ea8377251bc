(** EditNeat: edits keep a document neat (C43). *)
From Verif Require Import Base Source Utils Items Container Arrays Parser Lemmas Wf Errors Render Consist OMap ContOps ContText PyVal PyItem Numbers Dates DumpText DumpCont DumpRender Grammar Denote Snug CompValue Written Document Edit Changes Neat.
From Coq Require Import ZifyBool ZifyNat ZifyN.
Open Scope nat_scope.

(** * Statements of other keys *)
Definition upd (k : str) (n : node) (l : list (str * node)) : list (str * node) := map (fun kn => if str_eqb (fst kn) k then (fst kn, n) else kn) l.
Definition dele (k : str) (l : list (str * node)) : list (str * node) := filter (fun kn => negb (str_eqb (fst kn) k)) l.
Lemma upd_keys k n l : map fst (upd k n l) = map fst l.
Proof. unfold upd. rewrite map_map. apply map_ext. intros [a b]. cbn [fst]. destruct (str_eqb a k); reflexivity. Qed.
Lemma upd_none k n l : ~ In k (map fst l) -> upd k n l = l.
Proof.
  induction l as [|[a b] l IH]; intros H; [reflexivity|]. cbn [upd map fst]. fold (upd k n l). rewrite IH by (intros X; apply H; right; exact X).
  destruct (str_eqb a k) eqn:E; [|reflexivity]. apply str_eqb_eq in E. subst. exfalso. apply H. left. reflexivity.
Qed.
Lemma upd_app k n a b : upd k n (a ++ b) = upd k n a ++ upd k n b. Proof. apply map_app. Qed.
Lemma dele_app k a b : dele k (a ++ b) = dele k a ++ dele k b. Proof. apply filter_app. Qed.
Lemma dele_none k l : ~ In k (map fst l) -> dele k l = l.
Proof.
  induction l as [|[a b] l IH]; intros H; [reflexivity|]. cbn [dele filter fst]. fold (dele k l). rewrite IH by (intros X; apply H; right; exact X).
  destruct (str_eqb a k) eqn:E; [|reflexivity]. apply str_eqb_eq in E. subst. exfalso. apply H. left. reflexivity.
Qed.
Lemma dele_in k x l : In x (map fst (dele k l)) -> In x (map fst l) /\ x <> k.
Proof.
  rewrite !in_map_iff. intros ([a b] & E & H). cbn [fst] in E. subst a. apply filter_In in H as [H1 H2]. cbn [fst] in H2. split; [exists (x, b); auto|]. intros ->. rewrite str_eqb_refl in H2. discriminate.
Qed.
Lemma put_upd names v l l1 k n : put names v l l1 -> hd [] names <> k -> put names v (upd k n l) (upd k n l1).
Proof.
  intros H Hk. inversion H as [k0 v0 l0 Hn|k0 r v0 l0 m Hn Hp|k0 r v0 a m m' b Hp]; subst; cbn [hd] in Hk; apply str_eqb_neq in Hk.
  - rewrite upd_app. cbn [upd map fst]. rewrite Hk. constructor. fold (upd k n l). rewrite upd_keys. exact Hn.
  - rewrite upd_app. cbn [upd map fst]. rewrite Hk. constructor; [fold (upd k n l); rewrite upd_keys; exact Hn|exact Hp].
  - rewrite !upd_app. cbn [upd map fst]. rewrite Hk. constructor. exact Hp.
Qed.
Lemma put_dele names v l l1 k : put names v l l1 -> hd [] names <> k -> put names v (dele k l) (dele k l1).
Proof.
  intros H Hk. inversion H as [k0 v0 l0 Hn|k0 r v0 l0 m Hn Hp|k0 r v0 a m m' b Hp]; subst; cbn [hd] in Hk; apply str_eqb_neq in Hk.
  - rewrite dele_app. cbn [dele filter fst]. rewrite Hk. cbn [negb]. constructor. intros X. apply Hn. eapply dele_in; exact X.
  - rewrite dele_app. cbn [dele filter fst]. rewrite Hk. cbn [negb]. constructor; [intros X; apply Hn; eapply dele_in; exact X|exact Hp].
  - rewrite !dele_app. cbn [dele filter fst]. rewrite Hk. cbn [negb]. constructor. exact Hp.
Qed.
Lemma put_gone names v l l1 k : put names v l l1 -> hd [] names = k -> dele k l1 = dele k l.
Proof.
  intros H Hk. inversion H as [k0 v0 l0 Hn|k0 r v0 l0 m Hn Hp|k0 r v0 a m m' b Hp]; subst; cbn [hd] in *; rewrite !dele_app; cbn [dele filter fst]; rewrite str_eqb_refl; cbn [negb]; rewrite ?app_nil_r; reflexivity.
Qed.
Lemma put_keys names v l l1 : put names v l l1 -> forall x, In x (map fst l1) <-> In x (map fst l) \/ x = hd [] names.
Proof.
  intros H x. inversion H as [k0 v0 l0 Hn|k0 r v0 l0 m Hn Hp|k0 r v0 a m m' b Hp]; subst; cbn [hd]; rewrite ?map_app, ?in_app_iff; cbn [map fst In]; intuition.
Qed.

(** * Lines *)
Definition has_key (k : str) (e : entry) : Prop := exists sk, fst e = Some sk /\ k_key sk = k.
Definition erase (k : str) (e : entry) : entry := match fst e with Some sk => if str_eqb (k_key sk) k then (None, INull) else e | None => e end.
Lemma null_line : nline (None, INull) None.
Proof. constructor; [exact I|constructor|exact I]. Qed.
Lemma nline_head e names v : nline e (Some (names, v)) -> exists sk, fst e = Some sk /\ hd [] names = k_key sk.
Proof. intros H. inversion H; subst; eexists; split; reflexivity. Qed.
Lemma nlines_keys l es l2 : nlines l es l2 -> forall x, In x (map fst l2) <-> In x (map fst l) \/ exists e, In e es /\ has_key x e.
Proof.
  induction 1 as [l|e es l l2 He _ IH|e names v es l l1 l2 He Hp _ IH]; intros x.
  - split; [auto|]. intros [H|(e & [] & _)]. exact H.
  - rewrite IH. inversion He; subst. split; intros [X|(e' & X & K)]; auto; right; [exists e'; split; [right; exact X|exact K]|]. destruct X as [<-|X]; [destruct K as (sk & K & _); discriminate|]. exists e'. auto.
  - destruct (nline_head _ _ _ He) as (sk & Es & Eh). rewrite IH, (put_keys _ _ _ _ Hp x), Eh. split.
    + intros [[H| ->]|(e' & H & K)]; [auto| |right; exists e'; split; [right; exact H|exact K]]. right. exists e. split; [left; reflexivity|]. exists sk. auto.
    + intros [H|(e' & [<-|H] & K)]; [auto| |right; eauto]. destruct K as (sk' & K & <-). rewrite Es in K. injection K as <-. auto.
Qed.
Lemma nlines_upd k n l es l2 : nlines l es l2 -> (forall e, In e es -> ~ has_key k e) -> nlines (upd k n l) es (upd k n l2).
Proof.
  induction 1 as [l|e es l l2 He _ IH|e names v es l l1 l2 He Hp _ IH]; intros H; [constructor|eapply ns_void; [exact He|apply IH; intros e' X; apply H; right; exact X]|].
  eapply ns_pair; [exact He|apply put_upd; [exact Hp|]|apply IH; intros e' X; apply H; right; exact X].
  destruct (nline_head _ _ _ He) as (sk & Es & Eh). rewrite Eh. intros X. apply (H e (or_introl eq_refl)). exists sk. auto.
Qed.
Lemma nlines_erase k l es l2 : nlines l es l2 -> nlines (dele k l) (map (erase k) es) (dele k l2).
Proof.
  induction 1 as [l|e es l l2 He _ IH|e names v es l l1 l2 He Hp _ IH]; cbn [map]; [constructor| |].
  - inversion He; subst. cbn [erase fst]. eapply ns_void; eauto.
  - destruct (nline_head _ _ _ He) as (sk & Es & Eh). unfold erase at 1. rewrite Es. destruct (str_eqb (k_key sk) k) eqn:E.
    + apply str_eqb_eq in E. rewrite (put_gone _ _ _ _ k Hp) in IH by congruence. eapply ns_void; [apply null_line|exact IH].
    + apply str_eqb_neq in E. eapply ns_pair; [exact He|apply put_dele; [exact Hp|congruence]|exact IH].
Qed.
Lemma nlines_void l es l2 : nlines l es l2 -> Forall (fun e => nline e None) es -> l2 = l.
Proof. induction 1 as [l|e es l l2 He _ IH|e names v es l l1 l2 He Hp _ IH]; intros F; [reflexivity|apply IH; inversion F; assumption|]. inversion F as [|? ? H _]; subst. inversion H; subst. inversion He. Qed.
Lemma split_key {A} k (l : list (str * A)) : In k (map fst l) -> NoDup (map fst l) -> exists a x b, l = a ++ (k, x) :: b /\ ~ In k (map fst (a ++ b)).
Proof.
  intros H Nd. apply in_map_iff in H as ([k' x] & E & H). cbn [fst] in E. subst k'. apply in_split in H as (a & b & ->). exists a, x, b. split; [reflexivity|].
  rewrite map_app in Nd. cbn [map fst] in Nd. apply NoDup_remove_2 in Nd. rewrite map_app. exact Nd.
Qed.
Lemma dict_of_app a b : dict_of (a ++ b) = dict_of a ++ dict_of b. Proof. apply map_app. Qed.
Lemma dict_of_keys l : map fst (dict_of l) = map fst l. Proof. unfold dict_of. rewrite map_map. reflexivity. Qed.
(** A line gets another value. *)
Lemma nlines_set x sk it it' v v' y ps : nlines [] (x ++ (Some sk, it) :: y) ps -> nline (Some sk, it) (Some ([k_key sk], v)) -> nline (Some sk, it') (Some ([k_key sk], v')) ->
  (forall e, In e (x ++ y) -> ~ has_key (k_key sk) e) -> nlines [] (x ++ (Some sk, it') :: y) (upd (k_key sk) (Value v') ps) /\ In (k_key sk) (map fst ps).
Proof.
  intros H H0 H1 Ho. split.
  - destruct (nlines_cut _ _ _ _ H) as (l1 & A & B). assert (N1 : ~ In (k_key sk) (map fst l1)).
    { intros X. apply (proj1 (nlines_keys _ _ _ A _)) in X. destruct X as [[]|(e & He & K)]. apply (Ho e); [apply in_or_app; left; exact He|exact K]. }
    eapply nlines_app; [exact A|]. inversion B as [|? ? ? ? He Hr|? names v2 ? ? l2 ? He Hp Hr]; subst.
    { inversion He; subst. }
    assert (Q : names = [k_key sk]). { inversion He; subst; [reflexivity|]. inversion H0; subst; contradiction. }
    subst names. eapply ns_pair; [exact H1|constructor; exact N1|].
    assert (El : l2 = l1 ++ [(k_key sk, Value v2)]). { inversion Hp as [|? r ? ? m Hn Hp'|? r ? a m m' b Hp']; subst; [reflexivity|inversion Hp'|inversion Hp']. }
    subst l2. pose proof (nlines_upd (k_key sk) (Value v') _ _ _ Hr) as X. rewrite upd_app, (upd_none _ _ l1 N1) in X. cbn [upd map fst] in X. rewrite str_eqb_refl in X. apply X.
    intros e He'. apply Ho, in_or_app. right. exact He'.
  - apply (nlines_keys _ _ _ H). right. exists (Some sk, it). split; [apply in_or_app; right; left; reflexivity|]. exists sk. auto.
Qed.

(** * Tables *)
Lemma ntable_kind tops path pfx sk it v : ntable tops path pfx sk it v -> k_dotted sk = false /\ is_table_or_aot it = true.
Proof. intros []; auto. Qed.
Lemma ntables_entry tops path pfx es l : ntables tops path pfx es l -> Forall (fun e => void_entry e \/ exists sk, fst e = Some sk /\ k_dotted sk = false /\ is_table_or_aot (snd e) = true) es.
Proof. induction 1 as [|tops path pfx e es l Sk Hv _ IH|tops path pfx sk it v es l H _ IH]; constructor; auto. right. destruct (ntable_kind _ _ _ _ _ _ H). exists sk. auto. Qed.
Lemma ntables_keys tops path pfx es l : ntables tops path pfx es l -> forall x, In x (map fst l) <-> exists e, In e es /\ has_key x e.
Proof.
  induction 1 as [|tops path pfx e0 es l [Sk _] Hv _ IH|tops path pfx sk it v es l H _ IH]; intros x; cbn [map fst In].
  - split; [intros []|intros (e & [] & _)].
  - rewrite IH. split; intros (e & He & K); exists e; [auto|]. destruct He as [<-|He]; [destruct K as (? & K & _); congruence|auto].
  - rewrite IH. split.
    + intros [<-|(e & He & K)]; [exists (Some sk, it); split; [auto|exists sk; auto]|exists e; auto].
    + intros (e & [<-|He] & K); [left; destruct K as (sk' & K & <-); injection K as <-; reflexivity|right; eauto].
Qed.
Lemma ntables_cut tops path pfx x e y l : ntables tops path pfx (x ++ e :: y) l -> fst e <> None ->
  exists sk it v l1 l2, e = (Some sk, it) /\ l = l1 ++ (k_key sk, v) :: l2 /\ ntable tops path pfx sk it v /\
    forall it' v', ntable tops path pfx sk it' v' -> ntables tops path pfx (x ++ (Some sk, it') :: y) (l1 ++ (k_key sk, v') :: l2).
Proof.
  revert l. induction x as [|f x IH]; intros l H Ne; cbn [app] in H.
  - inversion H as [|? ? ? ? ? ? [Sk _] Hv H1|? ? ? sk it v ? l2 H1 H2]; subst; [congruence|]. exists sk, it, v, [], l2. split; [reflexivity|]. split; [reflexivity|]. split; [exact H1|]. intros it' v' H'. cbn [app]. apply nt_cons; assumption.
  - inversion H as [|? ? ? ? ? ? Sk Hv H1|? ? ? sk it v ? l2 H1 H2]; subst.
    + destruct (IH _ H1 Ne) as (sk & it & v & l1 & l2 & -> & -> & A & B). exists sk, it, v, l1, l2. split; [reflexivity|]. split; [reflexivity|]. split; [exact A|]. intros it' v' H'. cbn [app]. apply nt_skip; auto.
    + destruct (IH _ H2 Ne) as (sk' & it' & v' & l1 & l3 & -> & -> & A & B). exists sk', it', v', ((k_key sk, v) :: l1), l3. split; [reflexivity|]. split; [reflexivity|]. split; [exact A|]. intros it2 v2 H'. cbn [app]. apply nt_cons; auto.
Qed.
Definition delp (k : str) (l : list (str * pyv)) : list (str * pyv) := filter (fun kv => negb (str_eqb (fst kv) k)) l.
Lemma ntables_erase k tops path pfx es l : ntables tops path pfx es l -> ntables tops path pfx (map (erase k) es) (delp k l).
Proof.
  induction 1 as [|tops path pfx e es l Sk Hv _ IH|tops path pfx sk it v es l H _ IH]; cbn [map delp filter fst]; [constructor| |]; unfold erase at 1; [rewrite (proj1 Sk); apply nt_skip; auto|].
  cbn [fst]. destruct (str_eqb (k_key sk) k); cbn [negb]; [apply nt_null|apply nt_cons]; auto.
Qed.
Lemma dele_dict k l : dict_of (dele k l) = delp k (dict_of l).
Proof. induction l as [|[a b] l IH]; [reflexivity|]. cbn [dele filter dict_of map delp fst snd]. destruct (str_eqb a k); cbn [negb]; [exact IH|]. cbn [map]. f_equal. exact IH. Qed.
Lemma delp_split k (a b : list (str * pyv)) x : ~ In k (map fst (a ++ b)) -> delp k (a ++ (k, x) :: b) = a ++ b.
Proof.
  assert (G : forall l, ~ In k (map fst l) -> delp k l = l).
  { induction l as [|[c v] l IH]; intros H; [reflexivity|]. cbn [delp filter fst]. fold (delp k l). rewrite IH by (intros X; apply H; right; exact X). destruct (str_eqb c k) eqn:E; [|reflexivity]. apply str_eqb_eq in E. subst. exfalso. apply H. left. reflexivity. }
  intros H. rewrite map_app, in_app_iff in H. unfold delp. rewrite filter_app. cbn [filter fst]. rewrite str_eqb_refl. cbn [negb]. f_equal; apply G; tauto.
Qed.
Lemma delp_nodup k (l : list (str * pyv)) : NoDup (map fst l) -> NoDup (map fst (delp k l)).
Proof.
  induction l as [|[a b] l IH]; intros H; [constructor|]. cbn [map fst] in H. apply NoDup_cons_iff in H as [H1 H2]. cbn [delp filter fst]. destruct (negb (str_eqb a k)); [|auto]. cbn [map fst]. constructor; [|auto].
  intros X. apply H1. rewrite in_map_iff in *. destruct X as (y & E & X). exists y. apply filter_In in X. tauto.
Qed.

(** * The consistency of an edited container *)
Lemma set_consistent c i bk v v' : consistent c -> nth_error (c_body c) i = Some (bk, v) -> is_table v' = is_table v -> consistent (set_body (list_set i (bk, v') (c_body c)) c).
Proof.
  intros [M [F D]] N T. destruct c as [body m p tks d]. cbn [set_body c_body c_map c_dict] in *.
  assert (G : forall j sk w, nth_error (list_set i (bk, v') body) j = Some (Some sk, w) -> exists w', nth_error body j = Some (Some sk, w') /\ is_table w' = is_table w).
  { intros j sk w E. rewrite nth_list_set in E. destruct (Nat.eqb_spec j i) as [->|]; [|eauto]. destruct (_ <? _); [|discriminate]. injection E as -> ->. eauto. }
  assert (G' : forall j sk w, nth_error body j = Some (Some sk, w) -> exists w', nth_error (list_set i (bk, v') body) j = Some (Some sk, w') /\ is_table w' = is_table w).
  { intros j sk w E. rewrite nth_list_set. destruct (Nat.eqb_spec j i) as [->|]; [|eauto]. rewrite N in E. injection E as -> ->. destruct (Nat.ltb_spec i (List.length body)) as [|X]; [eauto|]. apply nth_error_None in X. congruence. }
  split; [|split; [|exact D]]; cbn [c_body c_map].
  - intros k ci E. destruct (M k ci E) as (A & B & C). split; [exact A|]. split; [exact B|]. eapply Forall_impl; [|exact C]. intros j (sk & w & Nj & K & Tj). destruct (G' _ _ _ Nj) as (w' & Nj' & Tw). exists sk, w'. split; [exact Nj'|]. split; [exact K|]. intros X. rewrite Tw. auto.
  - intros j sk w E. destruct (G _ _ _ E) as (w' & E' & _). eapply F, E'.
Qed.
Lemma one_index c k i j sk v : consistent c -> map_get k (c_map c) = Some (One i) -> nth_error (c_body c) j = Some (Some sk, v) -> k_key sk = k -> j = i.
Proof. intros [_ [F _]] M N <-. destruct (F _ _ _ N) as (ci & E & X). rewrite M in E. injection E as <-. destruct X as [X|[]]. auto. Qed.
Lemma absent_key c k e : consistent c -> map_get k (c_map c) = None -> In e (c_body c) -> ~ has_key k e.
Proof. intros [_ [F _]] M I (sk & E & <-). apply In_nth_error in I as [j I]. destruct e as [ok v]. cbn [fst] in E. subst ok. destruct (F _ _ _ I) as (ci & E & _). congruence. Qed.
Lemma others_key c k i x e y : consistent c -> map_get k (c_map c) = Some (One i) -> c_body c = x ++ e :: y -> List.length x = i -> forall f, In f (x ++ y) -> ~ has_key k f.
Proof.
  intros C M B Lx f I (sk & E & K). destruct f as [ok v]. cbn [fst] in E. subst ok. assert (X : exists j, nth_error (c_body c) j = Some (Some sk, v) /\ j <> i).
  { rewrite B. apply in_app_iff in I as [I|I]; apply In_nth_error in I as [j I].
    - exists j. assert (j < List.length x) by (apply nth_error_Some; congruence). split; [rewrite nth_error_app1 by assumption; exact I|lia].
    - exists (List.length x + S j). split; [|lia]. rewrite nth_error_app2 by lia. replace (List.length x + S j - List.length x) with (S j) by lia. exact I. }
  destruct X as (j & N & D). apply D. eapply one_index; eauto.
Qed.
Lemma ok_in c i e : ok_cont c -> nth_error (c_body c) i = Some e -> ok_item (snd e).
Proof. intros [c0 _ _ F] N. rewrite Forall_forall in F. apply F. eapply nth_error_In, N. Qed.
Lemma ok_set c i bk v v' : ok_cont c -> nth_error (c_body c) i = Some (bk, v) -> is_table v' = is_table v -> ok_item v' -> ok_cont (set_body (list_set i (bk, v') (c_body c)) c).
Proof.
  intros [c0 C P F] N T O. constructor; [eapply set_consistent; eauto|destruct c0; exact P|]. destruct c0 as [body m p tks d]. cbn [set_body c_body] in *. rewrite (set_split _ _ _ _ N).
  rewrite (split_at _ _ _ N) in F. apply Forall_app in F as [F1 F2]. inversion F2; subst. apply Forall_app. split; [exact F1|]. constructor; assumption.
Qed.

(** * Where a new line goes *)
Lemma unkeyed_line e : fst e = None -> forall o, nline e o -> o = None.
Proof. intros H o L. inversion L; subst; auto; discriminate. Qed.
Lemma skip_line e : skip e -> forall o, nline e o -> o = None.
Proof. intros [H _] o L. inversion L; subst; auto; discriminate. Qed.
Lemma nline_kind e o : nline e o -> skip e \/ (is_null (snd e) = false /\ (match snd e with IWs _ f => negb f | _ => false end) = false /\
  is_table_or_aot (snd e) && negb (match fst e with Some k => k_dotted k | None => false end) = false /\ forall it, ends_line it (snd e) = true).
Proof.
  intros H. inversion H as [i Hi V Hc|sk it v P D Kd N Sp (Ti & Te & Tn)|sk c m ns v a k s w t Kd Tr]; subst; cbn [fst snd].
  - destruct i as [w [|]|t| | | | | | ]; try destruct Hi; [right; repeat split; intros it; unfold ends_line; reflexivity|left; split; [reflexivity|exact I]| |left; split; [reflexivity|exact I]]. right. repeat split. intros it. unfold ends_line. cbn [item_trivia is_wsitem ends_with_whitespace orb]. cbn in Hc. rewrite Hc, !orb_true_r. reflexivity.
  - right. destruct it; try destruct P; (repeat split; intros it'; unfold ends_line; rewrite (eol_inb _ Tn), !orb_true_r; reflexivity).
  - right. cbn [is_null is_table_or_aot is_table is_aot orb andb]. rewrite Kd. repeat split. intros it. unfold ends_line. cbn [item_trivia]. rewrite Tr, !orb_true_r. reflexivity.
Qed.
(** No lines before the first table. *)
Definition front (es : list entry) : Prop := match es with [] => True | e :: _ => fst e <> None end.
Lemma tables_index tops path pfx es l : ntables tops path pfx es l -> front es -> forall i acc, last_index_loop es i acc = acc.
Proof.
  intros H Fr. apply ntables_entry in H. destruct H as [|e es H _]; intros i acc; [reflexivity|]. destruct e as [ok v]. destruct H as [[H _]|(sk & E & Kd & T)]; [contradiction|].
  - cbn [fst snd] in *. subst ok. cbn [last_index_loop]. destruct v; try discriminate; cbn [is_null is_table_or_aot is_table is_aot orb andb]; rewrite Kd; reflexivity.
Qed.
Lemma lines_index tops path pfx b2 l : ntables tops path pfx b2 l -> front b2 -> forall b1 ps0 ps, nlines ps0 b1 ps -> forall i acc,
  (Forall skip b1 /\ last_index_loop (b1 ++ b2) i acc = acc) \/
  (exists x e y, b1 = x ++ e :: y /\ Forall skip y /\ (forall it, ends_line it (snd e) = true) /\ last_index_loop (b1 ++ b2) i acc = i + S (List.length x)).
Proof.
  intros H2 Fr b1. induction b1 as [|e b1 IH]; intros ps0 ps H i acc.
  - left. split; [constructor|]. apply (tables_index _ _ _ _ _ H2 Fr).
  - assert (X : exists o p, nline e o /\ nlines p b1 ps) by (inversion H; subst; eauto). destruct X as (o & p & Hl & Hr).
    destruct (nline_kind _ _ Hl) as [Sk|(N & W & T & E)]; destruct e as [ok v]; cbn [app last_index_loop].
    + assert (Q : forall r, (if is_null v then r else if match v with IWs _ f => negb f | _ => false end then r else if is_table_or_aot v && negb match ok with Some k => k_dotted k | None => false end then acc else last_index_loop (b1 ++ b2) (S i) (S i)) = r).
      { intros r. destruct Sk as [_ Sk]. cbn [snd] in Sk. destruct v as [w [|]| | | | | | | ]; try destruct Sk; reflexivity. }
      rewrite Q. destruct (IH _ _ Hr (S i) acc) as [(F & R)|(x & e & y & -> & F & E & R)]; [left; split; [constructor; assumption|exact R]|].
      right. exists ((ok, v) :: x), e, y. split; [reflexivity|]. split; [exact F|]. split; [exact E|]. rewrite R. cbn [List.length]. lia.
    + cbn [fst snd] in *. rewrite N, W, T. destruct (IH _ _ Hr (S i) (S i)) as [(F & R)|(x & e & y & -> & F & E' & R)].
      * right. exists [], (ok, v), b1. split; [reflexivity|]. split; [exact F|]. split; [exact E|]. rewrite R. cbn [List.length]. lia.
      * right. exists ((ok, v) :: x), e, y. split; [reflexivity|]. split; [exact F|]. split; [exact E'|]. rewrite R. cbn [List.length]. lia.
Qed.
Lemma resplit tops path pfx b1 b2 d : nbody tops path pfx b1 b2 d -> exists u b2', b2 = u ++ b2' /\ Forall void_entry u /\ front b2' /\ nbody tops path pfx (b1 ++ u) b2' d.
Proof.
  intros [tp pt pf c1 c2 ps l H1 H2 Nd]. assert (X : exists u b2', c2 = u ++ b2' /\ Forall void_entry u /\ front b2' /\ nlines ps u ps /\ ntables tp pt pf b2' l).
  { clear H1 Nd. induction H2 as [|? ? ? e es l Sk Hv H IH|? ? ? sk it v es l H H2 _].
    - exists [], []. repeat split; constructor.
    - destruct IH as (u & b2' & -> & F & Fr & N & T). exists (e :: u), b2'. split; [reflexivity|]. split; [constructor; assumption|]. split; [exact Fr|]. split; [|exact T]. apply ns_void; [|exact N]. destruct e as [k i]. destruct Sk as (K & Iv & Lc). cbn [fst snd] in *. subst k. constructor; assumption.
    - exists [], ((Some sk, it) :: es). split; [reflexivity|]. split; [constructor|]. split; [discriminate|]. split; [constructor|]. apply nt_cons; assumption. }
  destruct X as (u & b2' & -> & F & Fr & N & T). exists u, b2'. split; [reflexivity|]. split; [exact F|]. split; [exact Fr|]. constructor; [eapply nlines_app; eassumption|exact T|exact Nd].
Qed.
Lemma new_place tops path pfx c b1 b2 d k it : consistent c -> c_parsed c = false -> c_body c = b1 ++ b2 -> front b2 -> nbody tops path pfx b1 b2 d -> map_get k (c_map c) = None -> plain it ->
  exists c' x y, append_end c (Some (skey_of_str k)) it = Ok c' /\ b1 = x ++ y /\ Forall skip y /\ c_body c' = x ++ (Some (skey_of_str k), it) :: y ++ b2 /\ consistent c' /\ c_parsed c' = false.
Proof.
  intros C P B Fr H M Pl. destruct H as [tops path pfx b1 b2 ps l H1 H2 _]. destruct (append_end_new c (skey_of_str k) it C Pl M) as (c' & b1' & E & [_ Sb _ _ Sp _ _ _ Sc] & Cl). specialize (Cl P). subst b1'.
  unfold plain_place, last_index_before_table in Sb. rewrite P, B in Sb. destruct (lines_index _ _ _ _ _ H2 Fr b1 [] ps H1 0 0) as [(F & R)|(x & e & y & Eb & F & En & R)]; rewrite R in Sb.
  - exists c', [], b1. split; [exact E|]. split; [reflexivity|]. split; [exact F|]. split; [exact Sb|]. split; [exact Sc|congruence].
  - exists c', (x ++ [e]), y. split; [exact E|]. split; [rewrite <- app_assoc; exact Eb|]. split; [exact F|]. split; [|split; [exact Sc|congruence]]. rewrite Sb, Eb.
    replace ((x ++ e :: y) ++ b2) with ((x ++ [e]) ++ y ++ b2) by (rewrite <- !app_assoc; reflexivity). replace (0 + S (List.length x)) with (List.length (x ++ [e])) by (rewrite app_length; cbn; lia).
    rewrite firstn_app, firstn_all, Nat.sub_diag, skipn_app, skipn_all, Nat.sub_diag. cbn [firstn skipn app]. rewrite app_nil_r, close_snoc, En. destruct e; reflexivity.
Qed.
