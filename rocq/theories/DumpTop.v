(** DumpTop: reading back the whole text [dumps] writes. *)
From Verif Require Import Base Source Utils Items Container Arrays Parser Api Lemmas Escape Strings StringRT StringApi Numbers Floats Dates Keys Reader Consist OMap ContOps Wf Mono ListSpec ArrayLemmas ItemInd PyVal PyItem ItemConv Unwrap DumpText DumpCont DumpValue DumpHead DumpChain DumpDoc.
From Coq Require Import ZifyBool ZifyNat ZifyN Permutation.
Open Scope nat_scope.

Lemma sunwrap_parsing : forall c, sunwrap_cont (parsing_cont false c) = sunwrap_cont c.
Proof.
  refine (cont_ind2 (fun i => sunwrap (parsing_item false i) = sunwrap i) (fun c => sunwrap_cont (parsing_cont false c) = sunwrap_cont c) _ _ _ _ _ _ _ _ _); try reflexivity.
  - intros c m H. cbn [parsing_item]. rewrite !sunwrap_table, H. reflexivity.
  - intros l n p t H. cbn [parsing_item]. rewrite !sunwrap_aot. f_equal. f_equal. rewrite map_map. apply map_ext_in. intros [c m] Hin. rewrite Forall_forall in H. specialize (H _ Hin). cbn [fst] in H |- *. rewrite H. reflexivity.
  - intros body m p tks d H. rewrite !sunwrap_cont_eq. cbn [parsing_cont c_dict]. f_equal. apply map_ext. intros k. f_equal. unfold suval, get_item. cbn [c_map c_body].
    destruct (map_get k m) as [[i|l]|]; try reflexivity. rewrite nth_error_map. destruct (nth_error body i) as [[a v]|] eqn:E; [|reflexivity]. cbn [option_map snd].
    rewrite Forall_forall in H. apply nth_error_In in E. specialize (H _ E). cbn [snd] in H. exact H.
Qed.
Lemma body_up {sf} n n' c st a st' : n <= n' -> body_loop sf n c st = (Ok a, st') -> body_loop sf n' c st = (Ok a, st').
Proof. intros H. apply mle_up, mle_body; [exact H|left; reflexivity]. Qed.
Lemma tables_up {sf} n n' c st a st' : n <= n' -> tables_loop sf n c st = (Ok a, st') -> tables_loop sf n' c st = (Ok a, st').
Proof. intros H. apply mle_up, mle_tables_loop; [exact H|left; reflexivity]. Qed.

Definition body_to (c : container) (st : pst) (c' : container) (st' : pst) : Prop := exists n, body_loop false n c st = (Ok c', st').
Definition at_mark (pre rest : str) : pst := mkSt pre rest (List.length pre).
Lemma body_stop c pre rest : tail_head rest -> body_to c (at_mark pre rest) c (at_mark pre rest).
Proof. intros [->|(r & ->)]; exists 1; reflexivity. Qed.
Lemma body_lf c pre rest c' st' : nows c -> body_to (add_ws c [chLF]) (at_mark (pre ++ [chLF]) rest) c' st' -> body_to c (at_mark pre (chLF :: rest)) c' st'.
Proof.
  intros Hn [n E]. exists (S n). cbn [body_loop]. unfold at_mark at 1. unfold bind at 1, endM, at_end. cbn [p_rest]. unfold bind at 1, current, cur. cbn [p_rest]. change (chLF =? chLBR)%N with false. cbn [orb].
  unfold bind at 1. rewrite item_lf. unfold bind at 1, get. rewrite merge_none by exact Hn. unfold bind at 1, cappend. destruct (app_fuel_pos c None (IWs [chLF] false)) as [q ->]. rewrite append_ws. cbn [wrap_append].
  unfold ret. unfold bind at 1, mark, set_mark. cbn [p_pre p_rest]. exact E.
Qed.
Lemma body_lines ps rest : Forall reads_e ps -> forall c r pre, shows c r -> nows c -> NoDup (map fst r ++ map fst ps) ->
  exists c' r', Forall2 kveq ps r' /\ shows c' (r ++ r') /\ nows c' /\
    forall cR st', body_to c' (at_mark (pre ++ flat_map line ps) rest) cR st' -> body_to c (at_mark pre (flat_map line ps ++ rest)) cR st'.
Proof.
  induction 1 as [|[k v] ps R F IH]; intros c r pre Hs Hn Nd.
  - exists c, []. rewrite app_nil_r. split; [constructor|]. split; [exact Hs|]. split; [exact Hn|]. cbn [flat_map]. rewrite app_nil_r. auto.
  - destruct (line_item k v (flat_map line ps ++ rest) R) as (m & it & (P & v' & U & Q) & E). destruct (E pre (List.length pre)) as [mk1 E1].
    cbn [map fst] in Nd. assert (Hk : ~ In k (map fst r)). { intros X. apply NoDup_remove_2 in Nd. apply Nd, in_or_app. left; exact X. }
    destruct (cappend_add c r (read_key k) it v' Hs Hk U) as [Ea Hs1]. cbn [read_key k_key] in Hs1.
    destruct (IH (add_new c (read_key k) it) (r ++ [(k, v')]) (pre ++ line (k, v)) Hs1 (add_nows _ _ _ P)) as (c' & r' & F2 & Hs2 & Hn2 & X). { rewrite map_app, <- app_assoc. exact Nd. }
    exists c', ((k, v') :: r'). split; [constructor; [split; [reflexivity|exact Q]|exact F2]|]. rewrite <- app_assoc in Hs2. split; [exact Hs2|]. split; [exact Hn2|].
    intros cR st' En. cbn [flat_map] in En |- *. rewrite <- app_assoc in X. destruct (X cR st' En) as [n' En']. exists (S (m + n')). rewrite <- app_assoc.
    cbn [body_loop]. unfold at_mark. unfold bind at 1, endM, at_end. cbn [p_rest]. unfold bind at 1, current, cur. cbn [p_rest].
    destruct (key1_start k) as (z & zs & Ez & Kz). apply kstart_facts in Kz. destruct Kz as (_ & _ & _ & _ & _ & _ & _ & K8 & _). apply N.eqb_neq in K8.
    assert (El : line (k, v) ++ flat_map line ps ++ rest = z :: zs ++ (L " = " ++ vtext false v ++ [chLF]) ++ flat_map line ps ++ rest).
    { unfold line. cbn [fst snd]. rewrite Ez, <- !app_assoc. reflexivity. }
    replace (match line (k, v) ++ flat_map line ps ++ rest with [] => true | _ => false end) with false by (rewrite El; reflexivity).
    replace (match line (k, v) ++ flat_map line ps ++ rest with [] => chNUL | c0 :: _ => c0 end) with z by (rewrite El; reflexivity).
    rewrite K8. cbn [orb]. unfold bind at 1. rewrite E1 by lia. unfold bind at 1, get. rewrite (plain_kind it P). cbn [key_is_multi].
    rewrite Ea. unfold bind at 1. cbn [wrap_append]. unfold ret. unfold bind at 1, mark, set_mark. cbn [p_pre p_rest]. apply (body_up n' (m + n')) in En'; [|lia]. exact En'.
Qed.
Definition tables_to (c : container) (st : pst) (c' : container) : Prop := exists n st', tables_loop false n c st = (Ok c', st').
Lemma tables_steps l tail c' cR k : forall pre c mk,
  Forall (headed [] k) l -> Forall not_elem l -> runs None None [] pre l tail ->
  fold_res (fun c (s : step) => cappend false c (Some (KSingle (fst (snd s)))) (snd (snd s))) l c = Ok c' ->
  marked pre (texts l ++ tail) mk ->
  (forall mk, marked (pre ++ texts l) tail mk -> tables_to c' (mkSt (pre ++ texts l) tail mk) cR) ->
  tables_to c (mkSt pre (texts l ++ tail) mk) cR.
Proof.
  induction l as [|[s [p it]] l IH]; intros pre c mk Hd Hn R A M X.
  - cbn [texts map List.concat app fold_res] in *. injection A as ->. rewrite app_nil_r in X. auto.
  - cbn [runs] in R. destruct R as ((m & mk1 & E & M1) & R). apply Forall_cons_iff in Hd as [(a & ch & r & Es) Hd]. apply Forall_cons_iff in Hn as [Hn1 Hn]. cbn [fst] in Es. unfold not_elem in Hn1. cbn [snd] in Hn1.
    cbn [fold_res fst snd] in A. destruct (cappend false c (Some (KSingle p)) it) as [c1|e] eqn:Ea; [|discriminate]. cbn [rbind] in A.
    change (texts ((s, (p, it)) :: l)) with (s ++ texts l) in *.
    destruct (IH (pre ++ s) c1 mk1 Hd Hn R A M1) as (n & st' & En). { intros mk2 M2. rewrite <- app_assoc in M2 |- *. apply X, M2. }
    rewrite <- app_assoc in M |- *.
    assert (Ne : exists z, s ++ texts l ++ tail = chLBR :: z) by (rewrite Es; destruct (hdr_start a ([] ++ k :: ch)) as [z ->]; cbn [app]; eauto). destruct Ne as [z Ne].
    destruct M as [M|M]; [rewrite Ne in M; discriminate|]. subst mk.
    exists (S (m + n)), st'. cbn [tables_loop]. unfold bind at 1, endM, at_end. cbn [p_rest]. replace (match s ++ texts l ++ tail with [] => true | _ => false end) with false by (rewrite Ne; reflexivity).
    apply (ptable_up m (m + n)) in E; [|lia]. unfold bind at 1. rewrite E. cbn [fst snd].
    apply (tables_up n (m + n)) in En; [|lia].
    destruct it as [ | | | | | |tc tm| ]; try (unfold bind at 1, ret at 1; unfold bind at 1; rewrite Ea; exact En). rewrite Hn1. unfold bind at 1, ret at 1; unfold bind at 1; rewrite Ea; exact En.
Qed.
(** The names that clash at the top: see [ebad]. *)
Definition clash_free (kvs : list (str * pyv)) : Prop :=
  forall k d ds d', In (k, PList (d :: ds)) kvs -> tablish (PList (d :: ds)) = true -> In (PDict d') ds -> ~ In k (bodyb d').
Lemma tables_run ts : Forall (fun x : bt => tabl (snd x) = true /\ py_fine (snd (snd x)) /\ safe [] [] (fst (snd x)) [] (snd (snd x))) ts ->
  forall pre c r mk, shows c r -> NoDup (map fst r ++ map fst (map snd ts)) -> marked pre (sibs [] ts []) mk ->
  exists c' r', Forall2 kveq (map snd ts) r' /\ shows c' (r ++ r') /\ tables_to c (mkSt pre (sibs [] ts []) mk) c'.
Proof.
  induction 1 as [|[b [k x]] ts (T & Hf & Hsafe) F0 IH]; intros pre c r mk Hs Nd M.
  - exists c, []. rewrite !app_nil_r. split; [constructor|]. split; [exact Hs|]. exists 1. eexists. reflexivity.
  - cbn [snd fst tabl map] in *. assert (Nk : ~ In k (map fst r) /\ ~ In k (map fst (map snd ts))). { apply NoDup_remove_2 in Nd. split; intros Z; apply Nd, in_or_app; auto. }
    destruct Nk as [Nk1 Nk2]. assert (Ts : Forall (fun x : bt => tabl (snd x) = true) ts) by (eapply Forall_impl; [|exact F0]; intros ? (? & _); assumption).
    assert (St : stop ([] ++ [k]) (sibs [] ts [])). { rewrite <- (app_nil_r (sibs [] ts [])). apply sibs_stop; [exact Ts|exact Nk2|left; reflexivity]. }
    destruct (proj1 (all_entries x) [] k [] [] None None (nb ts []) (sibs [] ts []) pre Hf T eq_refl (Forall_nil _) Hsafe (nb_ok ts [] (or_introl eq_refl)) St) as (steps & v' & Q & Tx & R & Hd & Na & A). cbn [wrap] in Q.
    destruct (A c r Hs Nk1) as (c1 & [_ A1] & Hs1).
    assert (X : exists c2 r2, Forall2 kveq (map snd ts) r2 /\ shows c2 ((r ++ [(k, v')]) ++ r2) /\ forall mk, marked (pre ++ texts steps) (sibs [] ts []) mk -> tables_to c1 (mkSt (pre ++ texts steps) (sibs [] ts []) mk) c2).
    { destruct (IH (pre ++ texts steps) c1 (r ++ [(k, v')]) (List.length (pre ++ texts steps)) Hs1) as (c3 & r3 & F3 & Hs3 & S3). { rewrite map_app, <- app_assoc. exact Nd. } { right; reflexivity. }
      exists c3, r3. split; [exact F3|]. split; [exact Hs3|]. intros mk1 [Z|Z]; [|subst mk1; exact S3]. rewrite Z in *. destruct S3 as (n & st' & E). exists 1. eexists. destruct n as [|n]; [discriminate|]. cbn [tables_loop] in E |- *. unfold bind, endM, at_end in E |- *. cbn [p_rest] in E |- *. unfold ret in *. injection E as Q1 _. rewrite Q1. reflexivity. }
    destruct X as (c2 & r2 & F2 & Hs2 & S2). exists c2, ((k, v') :: r2). split; [constructor; [split; [reflexivity|exact Q]|exact F2]|]. rewrite <- app_assoc in Hs2. split; [exact Hs2|].
    cbn [sibs fst snd] in M |- *. assert (Q1 : ttext ([] ++ [k]) x ++ nb ts [] ++ sibs [] ts [] = texts steps ++ sibs [] ts []) by (rewrite Tx, <- !app_assoc; reflexivity).
    rewrite Q1 in M |- *. eapply tables_steps; eauto.
Qed.
Lemma reads_back kvs : py_fine (PDict kvs) -> clash_free kvs -> exists c r, parse (doc_text kvs) = Ok c /\ unwrap_cont c = Some r /\ pyeq (PDict kvs) (PDict r).
Proof.
  intros Hf Hc. destruct (fine_dict kvs Hf) as [Nd Fl]. unfold doc_text. destruct (assemble_body [] kvs) as (ps & ts & Sp & ->).
  assert (Nd' : NoDup (map fst ps ++ map fst (map snd ts))). { rewrite <- map_app. eapply perm_nodup; [apply Sp|exact Nd]. }
  assert (Rp : Forall reads_e ps). { apply Forall_forall. intros kv Hkv. apply values_read. rewrite Forall_forall in Fl. apply Fl. eapply splits_sub; [exact Sp|]. apply in_or_app. left. exact Hkv. }
  assert (Ft : Forall (fun x : bt => tabl (snd x) = true /\ py_fine (snd (snd x)) /\ safe [] [] (fst (snd x)) [] (snd (snd x))) ts).
  { pose proof (sp_tabs _ _ _ Sp) as St. rewrite Forall_forall in St. apply Forall_forall. intros [b [k x]] Hx. specialize (St _ Hx). cbn [fst snd tabl] in *. assert (I : In (k, x) kvs). { eapply splits_sub; [exact Sp|]. apply in_or_app. right. apply (in_map snd) in Hx. exact Hx. }
    rewrite Forall_forall in Fl. specialize (Fl _ I). split; [exact St|]. split; [exact Fl|]. split; [intros s (z & [] & _)|intros _ (z & [] & _)|]. intros _ _. destruct x as [ | | | | | | |[|d ds]| ]; try exact Logic.I.
    apply Forall_forall. intros d' Hd. destruct d' as [ | | | | | | | |d']; try exact Logic.I. eapply Hc; eauto. }
  unfold body_text. assert (Et : tabs [] ts = nb ts [] ++ sibs [] ts []) by (rewrite <- tabs_sibs, app_nil_r; reflexivity). rewrite Et. clear Et.
  set (rest := nb ts [] ++ sibs [] ts []).
  destruct (body_lines ps rest Rp (empty_cont true) [] [] shows_empty I) as (c1 & r1 & F1 & Hs1 & Hn1 & X1). { cbn [map app]. eapply nodup_left. exact Nd'. }
  cbn [app] in Hs1, X1. set (pre1 := flat_map line ps) in *.
  set (c2 := match nb ts [] with [] => c1 | _ => add_ws c1 [chLF] end). set (pre2 := pre1 ++ nb ts []).
  assert (Hs2 : shows c2 r1) by (subst c2; destruct (nb ts []); [exact Hs1|apply shows_ws, Hs1]).
  assert (Nd2 : NoDup (map fst r1 ++ map fst (map snd ts))) by (rewrite <- (kveq_keys _ _ F1); exact Nd').
  assert (Th : tail_head (sibs [] ts [])). { rewrite <- (app_nil_r (sibs [] ts [])). apply sibs_head; [eapply Forall_impl; [|exact Ft]; intros ? (? & _); assumption|left; reflexivity]. }
  assert (B2 : body_to c1 (at_mark pre1 rest) c2 (at_mark pre2 (sibs [] ts []))).
  { subst rest c2 pre2. destruct (nb_ok ts [] (or_introl eq_refl)) as [E|E]; rewrite E; cbn [app].
    - rewrite app_nil_r. apply body_stop, Th.
    - apply body_lf; [exact Hn1|]. apply body_stop, Th. }
  apply X1 in B2. destruct B2 as [n1 B2].
  destruct (tables_run ts Ft pre2 c2 r1 (List.length pre2) Hs2 Nd2) as (c3 & r3 & F3 & Hs3 & n2 & st3 & E3). { right; reflexivity. }
  exists (parsing_cont false c3), (r1 ++ r3). split; [|split].
  - rewrite <- (parse_fuel_indep (n1 + n2 + parse_fuel (pre1 ++ rest))) by lia. unfold parse_doc. unfold bind at 1. unfold start. change (mkSt [] (pre1 ++ rest) 0) with (at_mark [] (pre1 ++ rest)).
    apply (body_up n1 (n1 + n2 + parse_fuel (pre1 ++ rest))) in B2; [|lia]. rewrite B2. unfold bind at 1. apply (tables_up n2 (n1 + n2 + parse_fuel (pre1 ++ rest))) in E3; [|lia]. unfold at_mark. rewrite E3. reflexivity.
  - apply simple_unwrap_cont. rewrite sunwrap_parsing. apply shows_unwrap, Hs3.
  - eapply pe_dict; [apply Sp|]. apply Forall2_app; assumption.
Qed.
