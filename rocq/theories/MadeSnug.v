(** MadeSnug: entries of inline tables; the values that tomlkit makes of Python values are snug (C43, C49). *)
From Verif Require Import Base Source Utils Items Container Arrays Parser Api Lemmas Wf Errors Text Render TextValue Consist OMap ContOps ContText PyVal PyItem ItemConv ListSpec ArrayLemmas ArrayText ArrayTidy DumpText DumpCont DumpValue Numbers Dates DumpRender DumpDoc Grammar Denote Facts ValueEnd Snug Lines CompValue Reread Written Document Edit Changes Possible Neat EditNeat.
From Coq Require Import ZifyBool ZifyNat ZifyN Permutation.
Open Scope nat_scope.

Definition eqd (a b : str * pyv) : Prop := fst a = fst b /\ pyeq (snd a) (snd b).
Lemma skey_name k : name_means (k_orig (skey_of_str k)) k.
Proof. pose proof (key_written k) as H. unfold key1 in H. inversion H as [w m N|w m r l N K]; subst; [exact N|]. inversion K. Qed.
Lemma sep_space : sep_text (L " = ").
Proof. exists [32%N], [32%N]. split; [reflexivity|]. split; repeat constructor; auto. Qed.
Lemma plain_set_trivia t i : plain i -> plain (set_trivia t i).
Proof. destruct i; auto. Qed.
Lemma plain_set_back t i : plain i -> item_trivia (set_trivia t i) = t.
Proof. destruct i; intros H; try destruct H; reflexivity. Qed.

(** * Entries *)
Lemma put_keep names v l l1 k n : Denote.put names v l l1 -> hd [] names <> k -> In (k, n) l -> In (k, n) l1.
Proof.
  intros H Hk I. inversion H as [k0 v0 l0 Hn|k0 r v0 l0 m Hn Hp|k0 r v0 a m m' b Hp]; subst; cbn [hd] in Hk; [apply in_or_app; left; exact I|apply in_or_app; left; exact I|].
  apply in_app_iff in I as [I|[I|I]]; apply in_or_app; [left; exact I|injection I as <- _; contradiction|right; right; exact I].
Qed.
Lemma put_unique names v l l1 : Denote.put names v l l1 -> NoDup (map fst l) -> NoDup (map fst l1).
Proof.
  intros H Nd. inversion H as [k0 v0 l0 Hn|k0 r v0 l0 m Hn Hp|k0 r v0 a m m' b Hp]; subst.
  - rewrite map_app. cbn [map fst]. apply nodup_snoc; assumption.
  - rewrite map_app. cbn [map fst]. apply nodup_snoc; assumption.
  - rewrite map_app in *. cbn [map fst] in *. exact Nd.
Qed.
Lemma hollow_nokey e k : hollow e -> ~ has_key k e.
Proof. intros [A _] (sk & B & _). congruence. Qed.
Lemma sfields_keys l b l2 : sfields l b l2 -> forall x, In x (map fst l2) <-> In x (map fst l) \/ exists e, In e b /\ has_key x e.
Proof.
  induction 1 as [l|e b l l2 He _ IH|sk it v b l l2 Kd Nm Sp P U C Sn Nk _ IH|sk it k s w e ns v b l l1 l2 T E K Ns Sp D Be La Dn P _ IH]; intros x.
  - split; [auto|]. intros [H|(e & [] & _)]. exact H.
  - rewrite IH. split; (intros [X|(f & X & K)]; [left; exact X|right]); [exists f; split; [right; exact X|exact K]|]. destruct X as [<-|X]; [destruct (hollow_nokey _ _ He K)|exists f; auto].
  - rewrite IH, map_app, in_app_iff. cbn [map fst In]. split.
    + intros [[X|[<-|[]]]|(f & X & K)]; [auto|right; exists (Some sk, it); split; [left; reflexivity|exists sk; auto]|right; exists f; split; [right; exact X|exact K]].
    + intros [X|(f & [<-|X] & K)]; [auto|destruct K as (s2 & K & <-); injection K as <-; auto|right; exists f; auto].
  - rewrite IH, (put_keys _ _ _ _ P x). cbn [hd]. split.
    + intros [[X| ->]|(f & X & Q)]; [auto|right; exists (Some sk, it); split; [left; reflexivity|exists sk; auto]|right; exists f; split; [right; exact X|exact Q]].
    + intros [X|(f & [<-|X] & Q)]; [auto|destruct Q as (s2 & Q & <-); injection Q as <-; auto|right; exists f; auto].
Qed.
Lemma sfields_unique l b l2 : sfields l b l2 -> NoDup (map fst l) -> NoDup (map fst l2).
Proof.
  induction 1 as [l|e b l l2 He _ IH|sk it v b l l2 Kd Nm Sp P U C Sn Nk _ IH|sk it k s w e ns v b l l1 l2 T E K Ns Sp D Be La Dn P _ IH]; intros Nd; auto.
  - apply IH. rewrite map_app. cbn [map fst]. apply nodup_snoc; assumption.
  - apply IH. eapply put_unique; eassumption.
Qed.
Lemma sfields_keep k n l b l2 : sfields l b l2 -> (forall e, In e b -> ~ has_key k e) -> In (k, n) l -> In (k, n) l2.
Proof.
  induction 1 as [l|e b l l2 He _ IH|sk it v b l l2 Kd Nm Sp P U C Sn Nk _ IH|sk it kw s w e ns v b l l1 l2 T E K Ns Sp D Be La Dn P _ IH]; intros H I; auto.
  - apply IH; [intros f X; apply H; right; exact X|exact I].
  - apply IH; [intros f X; apply H; right; exact X|apply in_or_app; left; exact I].
  - apply IH; [intros f X; apply H; right; exact X|]. eapply put_keep; [exact P| |exact I]. cbn [hd]. intros X. apply (H _ (or_introl eq_refl)). exists sk. auto.
Qed.
Lemma sfields_upd k n l b l2 : sfields l b l2 -> (forall e, In e b -> ~ has_key k e) -> sfields (upd k n l) b (upd k n l2).
Proof.
  induction 1 as [l|e b l l2 He _ IH|sk it v b l l2 Kd Nm Sp P U C Sn Nk _ IH|sk it kw s w e ns v b l l1 l2 T E K Ns Sp D Be La Dn P _ IH]; intros H; [constructor| | |].
  - apply sf_void; [exact He|]. apply IH. intros f X. apply H. right. exact X.
  - assert (Q : str_eqb (k_key sk) k = false) by (apply str_eqb_neq; intros X; apply (H _ (or_introl eq_refl)); exists sk; auto). eapply sf_pair; eauto; [rewrite upd_keys; exact Nk|].
    rewrite upd_app in IH. cbn [upd map fst] in IH. rewrite Q in IH. apply IH. intros f X. apply H. right. exact X.
  - eapply sf_dotted; eauto; [apply put_upd; [exact P|]|]. + cbn [hd]. intros X. apply (H _ (or_introl eq_refl)). exists sk. auto. + apply IH. intros f X. apply H. right. exact X.
Qed.
Lemma null_hollow : hollow (None, INull).
Proof. split; [reflexivity|exact I]. Qed.
Lemma sfields_erase k l b l2 : sfields l b l2 -> sfields (dele k l) (map (erase k) b) (dele k l2).
Proof.
  induction 1 as [l|e b l l2 He _ IH|sk it v b l l2 Kd Nm Sp P U C Sn Nk _ IH|sk it kw s w e ns v b l l1 l2 T E K Ns Sp D Be La Dn P _ IH]; cbn [map]; [constructor| | |].
  - apply sf_void; [|exact IH]. unfold erase. destruct He as [A B]. rewrite A. split; [exact A|exact B].
  - unfold erase at 1. cbn [fst]. rewrite dele_app in IH. cbn [dele filter fst] in IH. destruct (str_eqb (k_key sk) k) eqn:Q; cbn [negb] in IH.
    + rewrite app_nil_r in IH. apply sf_void; [apply null_hollow|exact IH].
    + eapply sf_pair; eauto. intros X. apply Nk. eapply dele_in, X.
  - unfold erase at 1. cbn [fst]. destruct (str_eqb (k_key sk) k) eqn:Q.
    + apply str_eqb_eq in Q. rewrite (put_gone _ _ _ _ k P) in IH by exact Q. apply sf_void; [apply null_hollow|exact IH].
    + apply str_eqb_neq in Q. eapply sf_dotted; eauto. apply put_dele; [exact P|exact Q].
Qed.
Lemma sfields_null l b l2 : sfields l b l2 -> Forall (fun e : bent => snd e = INull) b -> Forall hollow b /\ l2 = l.
Proof.
  induction 1 as [l|e b l l2 He _ IH|sk it v b l l2 Kd Nm Sp P U C Sn Nk _ IH|sk it kw s w e ns v b l l1 l2 T E K Ns Sp D Be La Dn P _ IH]; intros F; inversion F as [|? ? F1 F2]; subst; [split; [constructor|reflexivity]| | |].
  - destruct (IH F2) as [A ->]. split; [constructor; assumption|reflexivity].
  - cbn [snd] in F1. subst it. destruct P.
  - cbn [snd] in F1. subst it. discriminate T.
Qed.
Lemma hollow_sfields l b : Forall hollow b -> sfields l b l.
Proof. induction 1; [constructor|apply sf_void; assumption]. Qed.
(** A pair gets another value. *)
Lemma sfields_swap x sk it y ps : sfields [] (x ++ (Some sk, it) :: y) ps -> plain it -> (forall e, In e (x ++ y) -> ~ has_key (k_key sk) e) ->
  exists v a b, snug it v /\ unmoved it /\ close_set (item_trivia it) /\ ps = a ++ (k_key sk, Value v) :: b /\ ~ In (k_key sk) (map fst (a ++ b)) /\
    forall it' v', plain it' -> unmoved it' -> close_set (item_trivia it') -> snug it' v' -> sfields [] (x ++ (Some sk, it') :: y) (a ++ (k_key sk, Value v') :: b).
Proof.
  intros H P Ho. assert (Nd : NoDup (map fst ps)) by (eapply sfields_unique; [exact H|constructor]). destruct (sfields_cut _ _ _ _ H) as (l1 & A & B).
  inversion B as [|? ? ? ? He|? ? v ? ? ? Kd Nm Sp P0 U C Sn Nk Hr|? ? ? ? ? ? ? ? ? ? ? ? T]; subst; [destruct He as [X _]; discriminate X| |destruct it; try destruct P; discriminate T].
  assert (Oy : forall e, In e y -> ~ has_key (k_key sk) e) by (intros e X; apply Ho, in_or_app; right; exact X).
  assert (I : In (k_key sk, Value v) ps). { eapply sfields_keep; [exact Hr|exact Oy|]. apply in_or_app. right. left. reflexivity. }
  apply in_split in I as (a & b & E). assert (Na : ~ In (k_key sk) (map fst (a ++ b))). { rewrite E in Nd. rewrite map_app in *. cbn [map fst] in Nd. apply NoDup_remove_2 in Nd. exact Nd. }
  exists v, a, b. split; [exact Sn|]. split; [exact U|]. split; [exact C|]. split; [exact E|]. split; [exact Na|]. intros it' v' P' U' C' S'.
  eapply sfields_app; [exact A|]. eapply sf_pair; eauto. pose proof (sfields_upd (k_key sk) (Value v') _ _ _ Hr Oy) as X. rewrite upd_app, (upd_none _ _ l1 Nk) in X. cbn [upd map fst] in X. rewrite str_eqb_refl in X.
  rewrite E in X. rewrite upd_app in X. cbn [upd map fst] in X. rewrite str_eqb_refl in X. fold (upd (k_key sk) (Value v') b) in X. rewrite map_app, in_app_iff in Na. rewrite !upd_none in X by tauto. exact X.
Qed.

(** * A new pair *)
Lemma null_index b : Forall nullp b -> forall i acc, (Forall (fun e : bent => snd e = INull) b /\ last_index_loop b i acc = acc) \/
  exists x e y, b = x ++ e :: y /\ plain (snd e) /\ Forall (fun e : bent => snd e = INull) y /\ last_index_loop b i acc = i + S (List.length x).
Proof.
  induction 1 as [|[k v] b H _ IH]; intros i acc; [left; split; [constructor|reflexivity]|]. cbn [last_index_loop]. unfold nullp in H. cbn [snd] in H. destruct H as [->|P].
  - cbn [is_null]. destruct (IH (S i) acc) as [[F E]|(x & e & y & -> & P & F & E)]; [left; split; [constructor; auto|exact E]|right; exists ((k, INull) :: x), e, y].
    split; [reflexivity|]. split; [exact P|]. split; [exact F|]. rewrite E. cbn [List.length]. lia.
  - rewrite (plain_not_null v P), (plain_not_table v P). cbn [andb]. replace (match v with IWs _ f => negb f | _ => false end) with false by (destruct v; try reflexivity; destruct P).
    destruct (IH (S i) (S i)) as [[F E]|(x & e & y & -> & P2 & F & E)]; right.
    + exists [], (k, v), b. split; [reflexivity|]. split; [exact P|]. split; [exact F|]. rewrite E. cbn [List.length]. lia.
    + exists ((k, v) :: x), e, y. split; [reflexivity|]. split; [exact P2|]. split; [exact F|]. rewrite E. cbn [List.length]. lia.
Qed.
Record pair_added (c : container) (l : list (str * node)) (k : str) (it : item) (c1 : container) (x y : list bent) : Prop := {
  pa_ok : consistent c1; pa_parsed : c_parsed c1 = c_parsed c; pa_dict : c_dict c1 = c_dict c ++ [k]; pa_body : c_body c1 = x ++ (Some (skey_of_str k), it) :: y;
  pa_map : map_get k (c_map c1) = Some (One (List.length x)); pa_before : sfields [] x l; pa_after : Forall hollow y; pa_kept : c_parsed c = false -> Forall nullp (x ++ y) }.
Lemma added_pair c l k it : consistent c -> addable c -> sfields [] (c_body c) l -> map_get k (c_map c) = None -> plain it ->
  exists c1 x y, append_end c (Some (skey_of_str k)) it = Ok c1 /\ pair_added c l k it c1 x y.
Proof.
  intros C A H M P. assert (M2 : map_get (k_key (skey_of_str k)) (c_map c) = None) by (rewrite skey_of_str_key; exact M). destruct (c_parsed c) eqn:Pc.
  - pose proof (append_absent (sf := false) 0 Own c (skey_of_str k) it false C Pc M2) as E. rewrite append_new_any in E by exact M2. rewrite pre_parsed in E by exact Pc. rewrite plain_name in E by exact P.
    destruct (add_new_facts c (skey_of_str k) it C M2) as (C1 & P1 & D1 & B1 & M1). rewrite skey_of_str_key in *. rewrite plain_name in B1 by exact P. exists (add_new c (skey_of_str k) it), (c_body c), []. split; [exact E|]. split; auto.
    + rewrite M1, str_eqb_refl. reflexivity.
    + congruence.
  - destruct A as [A|A]; [congruence|]. destruct (append_end_new c (skey_of_str k) it C P M2) as (c1 & b1 & E & [Sb0 Sb _ Sd Sp Sg _ _ Sc] & Cl). specialize (Cl Pc). rewrite skey_of_str_key in *.
    assert (Mx : forall x y, c_body c1 = x ++ (Some (skey_of_str k), it) :: y -> map_get k (c_map c1) = Some (One (List.length x))).
    { intros x y Bx. unfold get_item in Sg. destruct (map_get k (c_map c1)) as [[i|]|] eqn:Mi; try discriminate. f_equal. f_equal. symmetry. apply (EditNeat.one_index c1 k i (List.length x) (skey_of_str k) it Sc Mi); [rewrite Bx, nth_error_app2, Nat.sub_diag by lia; reflexivity|apply skey_of_str_key]. }
    assert (Pl : plain_place c = last_index_loop (c_body c) 0 0) by (unfold plain_place; rewrite Pc; reflexivity). rewrite Pl in *. clear Pl.
    destruct (null_index _ A 0 0) as [[F R]|(x & e & y & Eb & Pe & F & R)]; rewrite R in *; cbn [plus] in *.
    + cbn [firstn skipn] in *. subst b1. cbn [close_line List.length] in Sb. cbn [app] in Sb. destruct (sfields_null _ _ _ H F) as [Hf ->]. exists c1, [], (c_body c). split; [exact E|]. split; auto.
      * apply (Mx [] (c_body c)). exact Sb.
      * constructor.
    + assert (F1 : firstn (S (List.length x)) (c_body c) = x ++ [e]). { rewrite Eb. replace (x ++ e :: y) with ((x ++ [e]) ++ y) by (rewrite <- app_assoc; reflexivity). replace (S (List.length x)) with (List.length (x ++ [e])) by (rewrite app_length; cbn; lia). rewrite firstn_app, firstn_all, Nat.sub_diag. cbn [firstn]. apply app_nil_r. }
      assert (F2 : skipn (S (List.length x)) (c_body c) = y). { rewrite Eb. replace (x ++ e :: y) with ((x ++ [e]) ++ y) by (rewrite <- app_assoc; reflexivity). replace (S (List.length x)) with (List.length (x ++ [e])) by (rewrite app_length; cbn; lia). rewrite skipn_app, skipn_all, Nat.sub_diag. reflexivity. }
      rewrite F1, F2 in *. clear F1 F2. rewrite Eb in H, A. replace (x ++ e :: y) with ((x ++ [e]) ++ y) in H by (rewrite <- app_assoc; reflexivity). destruct (sfields_cut _ _ _ _ H) as (l1 & H1 & H2). destruct (sfields_null _ _ _ H2 F) as [Hy ->].
      destruct (sfields_cut _ _ _ _ H1) as (l0 & H3 & H4). destruct e as [ok ev]. cbn [snd] in Pe.
      inversion H4 as [|? ? ? ? He|sk ? v ? ? ? Kd Nm Spk P0 U Cs Sn Nk Hr|? ? ? ? ? ? ? ? ? ? ? ? T]; subst; [destruct He as [_ X]; cbn [snd] in X; destruct ev; try destruct Pe; destruct X| |destruct ev; try destruct Pe; discriminate T].
      assert (Q : exists ev', close_line it (x ++ [(Some sk, ev)]) = x ++ [(Some sk, ev')] /\ plain ev' /\ sfields l0 [(Some sk, ev')] l1).
      { unfold close_line. replace (List.length (x ++ [(Some sk, ev)])) with (S (List.length x)) by (rewrite app_length; cbn; lia). rewrite nth_error_app2, Nat.sub_diag by lia. cbn [nth_error]. destruct (ends_line it ev) eqn:En; [exists ev; auto|].
        rewrite list_set_app. exists (add_nl_trail ev). split; [reflexivity|]. split; [apply plain_set_trivia, Pe|]. unfold add_nl_trail. eapply sf_pair; eauto; [apply plain_set_trivia, Pe|apply unmoved_trivia; assumption| |apply snug_trivia; assumption].
        rewrite plain_set_back by exact Pe. destruct Cs as (S1 & S2 & S3). split; [exact S1|]. split; [exact S2|]. cbn [with_trail tr_trail]. unfold ends_line in En. apply orb_false_iff in En as [_ En]. destruct S3 as [S3|S3]; [rewrite S3; right; reflexivity|rewrite S3 in En; discriminate En]. }
      destruct Q as (ev' & Ec & Pv & Hv). rewrite Ec in Sb. exists c1, (x ++ [(Some sk, ev')]), y. split; [exact E|]. split; auto.
      * apply (Mx _ y). exact Sb.
      * eapply sfields_app; [exact H3|exact Hv].
      * intros _. apply Forall_app in A as [A1 A2]. inversion A2; subst. rewrite <- app_assoc. apply Forall_app. split; [assumption|]. constructor; [right; exact Pv|assumption].
Qed.
Lemma added_fields c l k it c1 x y it2 v : pair_added c l k it c1 x y -> addable c -> ~ In k (map fst l) -> plain it2 -> unmoved it2 -> close_set (item_trivia it2) -> snug it2 v ->
  sfields [] (x ++ (Some (skey_of_str k), it2) :: y) (l ++ [(k, Value v)]) /\ (c_parsed c = true \/ Forall nullp (x ++ (Some (skey_of_str k), it2) :: y)).
Proof.
  intros [A1 A2 A3 A4 A5 A6 A7 A8] Ad Nk P U C Sn. split.
  - eapply sfields_app; [exact A6|]. apply (sf_pair (skey_of_str k) it2 v); rewrite ?skey_of_str_key; [reflexivity|apply skey_name|apply sep_space|exact P|exact U|exact C|exact Sn|exact Nk|apply hollow_sfields, A7].
  - destruct (c_parsed c) eqn:Pc; [left; reflexivity|right]. specialize (A8 eq_refl). apply Forall_app in A8 as [F1 F2]. apply Forall_app. split; [exact F1|]. constructor; [right; exact P|exact F2].
Qed.

(** * Python values as values of a document *)
Definition made_in (v : pyv) (i : item) : Prop := plain i /\ item_trivia i = default_trivia /\ unmoved i /\ exists v', snug i v' /\ pyeq v v'.
Definition made_pair (v : pyv) (i : item) : Prop := plain i /\ close_set (item_trivia i) /\ unmoved i /\ exists v', snug i v' /\ pyeq v v'.
Lemma close_default : close_set default_trivia.
Proof. split; [constructor|]. split; [reflexivity|]. right. reflexivity. Qed.
Lemma empty_consistent p : consistent (empty_cont p).
Proof. split; [intros k ci E; discriminate E|]. split; [intros [|i] sk v E; discriminate E|]. cbn. split; [constructor|]. split; [constructor|]. intros k. cbn. split; [intros []|congruence]. Qed.
Lemma built_pairs kvs its : Forall2 (fun (kv : str * pyv) (ki : str * item) => fst ki = fst kv /\ made_pair (snd kv) (snd ki)) kvs its -> forall c l, consistent c -> c_parsed c = false -> addable c -> sfields [] (c_body c) l ->
  (forall x, In x (c_dict c) <-> In x (map fst l)) -> NoDup (map fst l ++ map fst kvs) ->
  exists c' l', build c its = Ok c' /\ consistent c' /\ c_parsed c' = false /\ addable c' /\ sfields [] (c_body c') (l ++ l') /\ Forall2 eqd kvs (dict_of l').
Proof.
  induction 1 as [|[k x] [k2 i] kvs its [Ek (P & Cl & U & v' & Sn & Q)] _ IH]; intros c l C Pc A H Dk Nd; cbn [build].
  - exists c, []. rewrite app_nil_r. split; [reflexivity|]. split; [exact C|]. split; [exact Pc|]. split; [exact A|]. split; [exact H|constructor].
  - cbn [fst snd] in *. subst k2. cbn [map fst] in Nd. assert (Nk : ~ In k (map fst l)) by (apply NoDup_remove_2 in Nd; intros X; apply Nd, in_or_app; left; exact X).
    assert (M : map_get k (c_map c) = None) by (apply dict_get_none; [exact C|rewrite Dk; exact Nk]). rewrite set_item_new by exact M. rewrite plain_name, plain_pre by exact P.
    destruct (added_pair c l k i C A H M P) as (c1 & x1 & y1 & -> & Ad). cbn [rbind].
    destruct (added_fields c l k i c1 x1 y1 i v' Ad A Nk P U Cl Sn) as [H1 A1]. destruct Ad as [C1 P1 D1 B1 _ _ _ _]. rewrite <- B1 in *.
    destruct (IH c1 (l ++ [(k, Value v')]) C1) as (c' & l' & E & C' & P' & A' & H' & F').
    { congruence. } { unfold addable. rewrite P1. exact A1. } { exact H1. } { intros z. rewrite D1, map_app, !in_app_iff, Dk. reflexivity. } { rewrite map_app, <- app_assoc. exact Nd. }
    exists c', ((k, Value v') :: l'). split; [exact E|]. split; [exact C'|]. split; [exact P'|]. split; [exact A'|]. split; [rewrite <- app_assoc in H'; exact H'|]. constructor; [split; [reflexivity|exact Q]|exact F'].
Qed.

(** * Tidy arrays *)
Lemma plug_app a b : forall xs, plug (a ++ b) xs = plug a (firstn (List.length (reals a)) xs) ++ plug b (skipn (List.length (reals a)) xs).
Proof.
  induction a as [|g a IH]; intros xs; [cbn [app reals flat_map List.length firstn plug skipn]; reflexivity|]. cbn [app plug]. rewrite reals_cons. unfold greal. destruct (g_real g) as [y|] eqn:G; cbn [app List.length].
  - destruct xs as [|x xs]; cbn [firstn skipn]; [rewrite IH, firstn_nil, skipn_nil; reflexivity|]. rewrite IH. reflexivity.
  - rewrite IH. destruct (firstn _ xs); reflexivity.
Qed.
Lemma plug_vgroup ln vs : Forall (vgroup ln) vs -> forall xs, List.length xs = List.length (reals vs) -> Forall real xs -> Forall (vgroup ln) (plug vs xs) /\ (commas vs -> commas (plug vs xs)) /\ (Forall (fun g => g_comment g = None) vs -> Forall (fun g => g_comment g = None) (plug vs xs)).
Proof.
  induction 1 as [|g vs H F IH]; intros xs E R; [cbn [plug]; auto|]. pose proof H as (H1 & (v & Hv) & H3). rewrite reals_cons in E. unfold greal in E. rewrite Hv in E. destruct xs as [|x xs]; [discriminate|]. injection E as E. inversion R; subst. destruct (IH xs E H5) as (A & B & C). cbn [plug]. rewrite Hv.
  split; [|split].
  - constructor; [|exact A]. destruct H1 as (K1 & K2 & K3). split; [split; [exact K1|split; [exact K2|exact K3]]|]. split; [exists x; unfold g_real; cbn [set_gvalue g_value]; rewrite real_null by assumption; reflexivity|exact H3].
  - intros [D1 D2]. split; [|auto]. intros N. unfold has_comma. cbn [set_gvalue g_comma]. apply D1. intros ->. apply N. reflexivity.
  - intros D. inversion D; subst. constructor; [assumption|auto].
Qed.
Lemma tidy_plug ln gs xs : ArrayTidy.tidy ln gs -> List.length xs = List.length (reals gs) -> Forall real xs -> ArrayTidy.tidy ln (plug gs xs).
Proof.
  intros (vs & tl & -> & V & C & B & N) E R. pose proof (tail_reals ln tl B) as Et. rewrite reals_app, Et, app_nil_r in E. rewrite plug_app.
  assert (E1 : firstn (List.length (reals vs)) xs = xs) by (rewrite <- E; apply firstn_all). assert (E2 : skipn (List.length (reals vs)) xs = []) by (rewrite <- E; apply skipn_all). rewrite E1, E2.
  assert (Pt : plug tl [] = tl). { clear. induction tl as [|g tl IH]; [reflexivity|]. cbn [plug]. rewrite IH. destruct (g_real g); reflexivity. } rewrite Pt. destruct (plug_vgroup ln vs V xs E R) as (A1 & A2 & A3). exists (plug vs xs), tl. split; [reflexivity|]. split; [exact A1|]. split; [apply A2, C|]. split; [exact B|]. intros X. apply A3, N, X.
Qed.
Lemma tidy_takes ln gs : ArrayTidy.tidy ln gs -> takes_all gs.
Proof.
  intros T xs vs E R D. pose proof (tidy_plug ln gs xs T E R) as T'. eapply comma_elements; [eapply text_tidy, T'|]. rewrite plug_reals by assumption. clear -D. induction D; constructor; assumption.
Qed.
Lemma snug_array ln gs t vs : ArrayTidy.tidy ln gs -> Forall real (reals gs) -> Forall2 snug (reals gs) vs -> snug (IArray gs t false) (PList vs).
Proof. intros T R F. apply sg_array; [exact R|eapply tidy_takes, T|apply elems_all, F]. Qed.

(** Elements of a list. *)
Definition made_elem (v : pyv) (i : item) : Prop := real i /\ exists v', snug i v' /\ pyeq v v'.
Lemma made_made v i : made_in v i -> made_elem v i.
Proof. intros (P & _ & _ & H). split; [destruct i; try destruct P; exact I|exact H]. Qed.
Lemma made_list l its t : Forall2 made_elem l its -> exists a, arr_extend arr_empty its = Ok a /\ exists v', snug (IArray (a_groups a) t false) v' /\ pyeq (PList l) v'.
Proof.
  intros F. assert (R : Forall real its) by (clear -F; induction F as [|? ? ? ? (X & _)]; constructor; assumption).
  destruct (extend_sync its arr_empty [] sync_empty R) as (a & E & Sa). exists a. split; [exact E|]. cbn [app] in Sa. pose proof Sa as (_ & Er & _).
  destruct (extend_tidy its arr_empty [] a sync_empty R (ex_intro _ false (tidy_nil false)) E) as [ln T].
  assert (V : exists vs, Forall2 snug its vs /\ Forall2 pyeq l vs). { clear -F. induction F as [|v i l its (_ & v' & A & B) _ (vs & C & D)]; [exists []; split; constructor|exists (v' :: vs); split; constructor; assumption]. }
  destruct V as (vs & V1 & V2). exists (PList vs). split; [|apply pe_list, V2]. eapply snug_array; [exact T|rewrite Er; exact R|rewrite Er; exact V1].
Qed.
Lemma made_dict kvs its new : NoDup (map fst kvs) -> Forall2 (fun (kv : str * pyv) (ki : str * item) => fst ki = fst kv /\ made_pair (snd kv) (snd ki)) kvs its ->
  exists c, build (empty_cont false) its = Ok c /\ exists l, snug (IInline c default_trivia new) (PDict (dict_of l)) /\ Forall2 eqd kvs (dict_of l).
Proof.
  intros Nd F. destruct (built_pairs kvs its F (empty_cont false) [] (empty_consistent false) eq_refl) as (c & l & E & C & P & A & Hs & Fe).
  { right. constructor. } { constructor. } { intros x. cbn. tauto. } { exact Nd. }
  exists c. split; [exact E|]. exists l. split; [|exact Fe]. apply sg_inline; [exact C|exact A|intros _; exact P|exact Hs].
Qed.
Lemma made_both v : py_fine v -> (forall pk, pk_inline pk = true \/ tablish v = false -> exists i, py_item pk v = Ok i /\ made_in v i) /\ (exists i, elem_item true v = Ok i /\ made_elem v i).
Proof.
  induction v as [s|z|b|f|d|t|d|l IH|kvs IH] using pyv_rect2; intros H.
  1-7: (match goal with |- context [made_in ?v _] => assert (A : exists i, (forall pk, py_item pk v = Ok i) /\ made_in v i) end;
    [match goal with |- context [made_in ?v _] => destruct (scalar_plain v eq_refl ltac:(discriminate)) as (i & E & [P Tr] & Tx); destruct (value_written _ H false) as (v' & D & Q) end; rewrite <- Tx in D; exists i; split; [exact E|]; pose proof (E PkInline) as E'; clear E;
     (assert (At : atom i) by (destruct i; try exact I; exfalso; discriminate E'));
     split; [exact P|]; split; [exact Tr|]; split; [intros u; destruct i; try destruct At; try destruct P; reflexivity|]; exists v'; split; [match type of E' with py_item _ ?q = _ => apply (sg_other _ _ q) end; [assumption|assumption|injection E' as <-; reflexivity|exact Q]|exact Q]
    |destruct A as (i & E & M); split; [intros pk _; exists i; auto|exists i; split; [exact (E PkArray)|apply made_made, M]]]).
  - assert (A : forall pk, pk_inline pk = true \/ tablish (PList l) = false -> exists i, py_item pk (PList l) = Ok i /\ made_in (PList l) i).
    { intros pk Hp. rewrite py_item_list. cbv zeta. assert (W : wants_aot pk l = false). { unfold wants_aot. destruct Hp as [Hp|Hp]; [destruct pk; try discriminate Hp; apply andb_false_r|]. destruct l as [|x l]; [reflexivity|]. cbn [tablish] in Hp. rewrite Hp. reflexivity. } rewrite W. cbn [negb].
      destruct (mapr_forall2 made_elem (elem_item true) l) as (its & -> & F).
      { assert (Fl : Forall py_fine l) by (inversion H as [? B|? Fl|]; subst; [destruct B|exact Fl]). rewrite Forall_forall in *. intros x I. destruct (IH _ I (Fl _ I)) as [_ X]. exact X. }
      cbn [rbind]. destruct (made_list l its default_trivia F) as (a & -> & v' & Sn & Q). cbn [rbind]. eexists. split; [reflexivity|]. split; [exact I|]. split; [reflexivity|]. split; [intros u; reflexivity|]. exists v'. auto. }
    split; [exact A|]. destruct (A PkArray (or_introl eq_refl)) as (i & E & M). exists i. split; [exact E|apply made_made, M].
  - destruct (fine_dict kvs H) as [Nd F].
    assert (X : Forall (fun kv : str * pyv => exists i, py_item PkInline (snd kv) = Ok i /\ made_in (snd kv) i) kvs). { rewrite Forall_forall in *. intros kv I. apply (IH _ I (F _ I)). left. reflexivity. }
    split.
    + intros pk [Hp|Hp]; [|discriminate Hp]. rewrite py_item_dict, Hp. cbn [dict_parent]. cbv zeta.
      destruct (mapr_forall2 (fun (kv : str * pyv) (ki : str * item) => fst ki = fst kv /\ made_pair (snd kv) (snd ki)) (fun kv : str * pyv => let* i := py_item PkInline (snd kv) in Ok (fst kv, i)) kvs) as (its & -> & F2).
      { eapply Forall_impl; [|exact X]. intros [k x] (i & E & P & Tr & U & M). cbn [fst snd] in *. rewrite E. exists (k, i). split; [reflexivity|]. split; [reflexivity|]. cbn [fst snd]. split; [exact P|]. split; [rewrite Tr; apply close_default|]. split; [exact U|exact M]. }
      cbn [rbind]. destruct (made_dict kvs its false Nd F2) as (c & -> & l & Sn & Q). cbn [rbind new_dict]. eexists. split; [reflexivity|]. split; [exact I|]. split; [reflexivity|]. split; [apply inline_unmoved|]. exists (PDict (dict_of l)). split; [exact Sn|]. eapply pe_dict; [apply Permutation_refl|exact Q].
    + cbn [elem_item dict_parent].
      destruct (mapr_forall2 (fun (kv : str * pyv) (bi : bool * (str * item)) => fst bi = is_dict (snd kv) /\ (fst (snd bi) = fst kv /\ made_pair (snd kv) (snd (snd bi)))) (fun kv : str * pyv => let* i := py_item PkInline (snd kv) in Ok (is_dict (snd kv), (fst kv, bare_trail true i))) kvs) as (its & -> & F2).
      { eapply Forall_impl; [|exact X]. intros [k x] (i & E & P & Tr & U & v' & Sn & Q). cbn [fst snd] in *. rewrite E. exists (is_dict x, (k, bare_trail true i)). split; [reflexivity|]. split; [reflexivity|]. split; [reflexivity|]. cbn [fst snd bare_trail].
        split; [apply plain_set_trivia, P|]. split; [rewrite plain_set_back by exact P; rewrite Tr; split; [constructor|]; split; [reflexivity|left; reflexivity]|]. split; [apply unmoved_trivia; assumption|]. exists v'. split; [apply snug_trivia; assumption|exact Q]. }
      cbn [rbind]. apply (dl_forall2 (fun (kv : str * pyv) (ki : str * item) => fst ki = fst kv /\ made_pair (snd kv) (snd ki))) in F2. destruct (made_dict (split_dicts kvs) (dicts_last its) true (split_nodup kvs Nd) F2) as (c & -> & l & Sn & Q). cbn [rbind]. eexists. split; [reflexivity|].
      split; [exact I|]. exists (PDict (dict_of l)). split; [exact Sn|]. eapply pe_dict; [|exact Q]. apply filter_split.
Qed.
Lemma made_inside v : py_fine v -> exists i, py_item PkInline v = Ok i /\ made_in v i.
Proof. intros H. apply (made_both v H). left. reflexivity. Qed.
