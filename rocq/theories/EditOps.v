(** EditOps: one assignment or deletion in a neat table (C43). *)
From Verif Require Import Base Source Utils Items Container Arrays Parser Api Lemmas Wf Errors Render Consist OMap ContOps ContText PyVal PyItem ItemConv DumpValue Numbers Dates DumpText DumpCont DumpRender Grammar Denote Snug CompValue Written Document Edit Changes ListSpec PropAot Neat EditNeat MadeSnug MadeNeat.
From Coq Require Import ZifyBool ZifyNat ZifyN.
Open Scope nat_scope.

(** * A new key *)
Lemma nodup_insert {A} (a b : list (str * A)) k v : NoDup (map fst (a ++ b)) -> ~ In k (map fst (a ++ b)) -> NoDup (map fst ((a ++ [(k, v)]) ++ b)).
Proof. rewrite <- app_assoc, !map_app. cbn [app map fst]. intros H N. apply NoDup_Add with (a := k) (l := map fst a ++ map fst b); [apply Add_app|]. split; assumption. Qed.
Lemma nbody_keys tops path pfx b1 b2 d : nbody tops path pfx b1 b2 d -> forall x, In x (map fst d) <-> exists e, In e (b1 ++ b2) /\ has_key x e.
Proof.
  intros [tp pt pf c1 c2 ps l H1 H2 _] x. rewrite map_app, in_app_iff, dict_of_keys. rewrite (nlines_keys _ _ _ H1 x), (ntables_keys _ _ _ _ _ H2 x). cbn [map In].
  split; [intros [[[]|(e & I & K)]|(e & I & K)]; exists e; rewrite in_app_iff; auto|]. intros (e & I & K). apply in_app_iff in I as [I|I]; eauto.
Qed.
Lemma add_neat tops path pfx c b1 b2 d k it w : ok_cont c -> c_body c = b1 ++ b2 -> front b2 -> nbody tops path pfx b1 b2 d -> map_get k (c_map c) = None -> plain it ->
  exists c' x y, set_item c k it = Ok c' /\ b1 = x ++ y /\ c_body c' = x ++ (Some (skey_of_str k), it) :: y ++ b2 /\ ok_cont c' /\
    map_get k (c_map c') = Some (One (List.length x)) /\
    forall it2 v v', nline (Some (skey_of_str k), it2) (Some ([k], v')) -> pyeq v v' -> w = v -> exists d', nbody tops path pfx (x ++ (Some (skey_of_str k), it2) :: y) b2 d' /\ changed (ESet k w) d d'.
Proof.
  intros [c0 C P F] B Fr H M Pl. destruct (new_place tops path pfx c0 b1 b2 d k it C P B Fr H M Pl) as (c' & x & y & E & Eb & Sk & B' & C' & P').
  assert (Es : set_item c0 k it = Ok c'). { rewrite set_item_new by exact M. rewrite plain_name, plain_pre by exact Pl. exact E. }
  exists c', x, y. split; [exact Es|]. split; [exact Eb|]. split; [exact B'|]. split.
  { constructor; [exact C'|exact P'|]. rewrite B'. rewrite B, Eb in F. rewrite <- app_assoc in F. apply Forall_app in F as [F1 F2]. apply Forall_app. split; [exact F1|]. constructor; [|exact F2].
    cbn [snd]. apply oi_other. apply plain_not_table, Pl. }
  split.
  { destruct (set_plain c0 k it C P Pl M) as (c2 & E2 & [_ _ _ _ G]). rewrite Es in E2. injection E2 as <-. unfold get_item in G. destruct (map_get k (c_map c')) as [[i|l]|] eqn:Em; try discriminate.
    f_equal. f_equal. symmetry. eapply one_index; [exact C'|exact Em| |apply skey_of_str_key]. rewrite B'. rewrite nth_error_app2, Nat.sub_diag by lia. reflexivity. }
  intros it2 v v' Hl Q ->. assert (Nk : ~ In k (map fst d)). { rewrite (nbody_keys _ _ _ _ _ _ H). intros (e & I & K). rewrite <- B in I. exact (absent_key _ _ _ C M I K). }
  destruct H as [tops path pfx b1 b2 ps l H1 H2 Nd]. subst b1. destruct (nlines_cut _ _ _ _ H1) as (ps' & A1 & A2).
  assert (ps' = ps). { symmetry. eapply nlines_void; [exact A2|]. clear -A2 Sk. induction A2 as [|e es l l2 He _ IH|e names v es l l1 l2 He Hp _ IH]; [constructor|inversion Sk; subst; constructor; auto|]. inversion Sk as [|? ? Hs _]; subst. pose proof (skip_line _ Hs _ He). discriminate. }
  subst ps'. rewrite map_app, dict_of_keys in Nk. assert (Np : ~ In k (map fst ps)) by (intros X; apply Nk, in_or_app; left; exact X).
  assert (Hn : nlines [] (x ++ (Some (skey_of_str k), it2) :: y) (ps ++ [(k, Value v')])).
  { eapply nlines_app; [exact A1|]. eapply ns_pair; [exact Hl|constructor; exact Np|]. clear -A2 Sk. remember (ps ++ _) as q. clear Heqq. revert q. induction A2 as [|e es l l2 He _ IH|e names v es l l1 l2 He Hp _ IH]; intros q; [constructor|eapply ns_void; [exact He|inversion Sk; auto]|].
    inversion Sk as [|? ? Hs _]; subst. pose proof (skip_line _ Hs _ He). discriminate. }
  eexists. split; [constructor; [exact Hn|exact H2|]|].
  - rewrite dict_of_app. apply nodup_insert; [exact Nd|]. rewrite map_app, dict_of_keys. exact Nk.
  - rewrite dict_of_app, <- app_assoc. cbn [dict_of map fst snd node_value app]. constructor; [rewrite map_app, dict_of_keys; exact Nk|exact Q].
Qed.

(** * A key that is there *)
Lemma list_ext {A} (a b : list A) : (forall i, nth_error a i = nth_error b i) -> a = b.
Proof.
  revert b. induction a as [|x a IH]; intros [|y b] H; [reflexivity|specialize (H 0); discriminate|specialize (H 0); discriminate|].
  pose proof (H 0) as H0. injection H0 as ->. f_equal. apply IH. intros i. apply (H (S i)).
Qed.
Lemma set_item_plain c i sk old it : consistent c -> map_get (k_key sk) (c_map c) = Some (One i) -> nth_error (c_body c) i = Some (Some sk, old) -> plain old -> plain it ->
  set_item c (k_key sk) it = Ok (ContOps.put c i (Some sk, copy_trivia it old) (map_set (k_key sk) (One i) (map_del (k_key sk) (c_map c)))).
Proof.
  intros C M N Po P. unfold set_item. destruct (app_fuel_pos c (Some (KSingle (skey_of_str (k_key sk)))) it) as [n ->].
  change (contains (S (S (S n))) c (k_key sk)) with (match map_get (k_key sk) (c_map c) with
      | None => Ok false | Some (One _) => Ok true
      | Some (Many l) => match proxy (S (S n)) c l with Ok _ => Ok true | Err (NonExistentKeyE _) => Ok false | Err e => Err e end end).
  rewrite M at 1. cbn [rbind]. apply replace_plain; assumption.
Qed.
Lemma upd_split k n l : In k (map fst l) -> NoDup (map fst l) -> exists a x b, l = a ++ (k, x) :: b /\ ~ In k (map fst (a ++ b)) /\ upd k n l = a ++ (k, n) :: b.
Proof.
  intros I Nd. destruct (split_key k l I Nd) as (a & x & b & -> & H). exists a, x, b. split; [reflexivity|]. split; [exact H|]. rewrite map_app, in_app_iff in H.
  rewrite upd_app. cbn [upd map fst]. rewrite str_eqb_refl. fold (upd k n b). rewrite !upd_none by tauto. reflexivity.
Qed.
Lemma plain_before tops path pfx b1 b2 d i e : nbody tops path pfx b1 b2 d -> nth_error (b1 ++ b2) i = Some e -> plain (snd e) -> exists x y, b1 = x ++ e :: y /\ i = List.length x.
Proof.
  intros H N P. destruct (Nat.lt_ge_cases i (List.length b1)) as [L|G].
  - rewrite nth_error_app1 in N by exact L. apply nth_error_split in N as (x & y & -> & <-). eauto.
  - rewrite nth_error_app2 in N by exact G. destruct H as [tops path pfx b1 b2 ps l H1 H2 _]. apply ntables_entry in H2. rewrite Forall_forall in H2. apply nth_error_In in N. destruct (H2 _ N) as [(_ & X & _)|(sk & _ & _ & T)]; [exfalso; destruct (snd e); contradiction|].
    apply plain_not_table in P. congruence.
Qed.
Lemma set_neat tops path pfx c b1 b2 d i sk old it v v' : ok_cont c -> c_body c = b1 ++ b2 -> nbody tops path pfx b1 b2 d -> map_get (k_key sk) (c_map c) = Some (One i) ->
  nth_error (c_body c) i = Some (Some sk, old) -> plain old -> plain it -> item_trivia it = default_trivia -> snug it v' -> (forall t, item_string (set_trivia t it) = item_string it) -> pyeq v v' ->
  exists c' x y d', set_item c (k_key sk) it = Ok c' /\ ok_cont c' /\ b1 = x ++ (Some sk, old) :: y /\ c_body c' = (x ++ (Some sk, copy_trivia it old) :: y) ++ b2 /\
    nbody tops path pfx (x ++ (Some sk, copy_trivia it old) :: y) b2 d' /\ changed (ESet (k_key sk) v) d d'.
Proof.
  intros O B H M N Po P Tr D St Q. destruct (ok_parts c O) as (C & Pr & F). pose proof N as N'. rewrite B in N'. destruct (plain_before _ _ _ _ _ _ _ _ H N' Po) as (x & y & Eb & Ei).
  pose proof (put_ok c i sk old (copy_trivia it old) C M N) as (C' & _ & P' & _). cbv zeta in *. eexists _, x, y.
  assert (Bo : c_body (ContOps.put c i (Some sk, copy_trivia it old) (map_set (k_key sk) (One i) (map_del (k_key sk) (c_map c)))) = (x ++ (Some sk, copy_trivia it old) :: y) ++ b2).
  { rewrite put_body, (set_split _ _ _ _ N), B, Eb, Ei. rewrite <- !app_assoc. cbn [app]. rewrite firstn_app, firstn_all, Nat.sub_diag. cbn [firstn]. rewrite app_nil_r. f_equal. f_equal.
    rewrite skipn_app, (skipn_all2 x) by lia. replace (S (List.length x) - List.length x) with 1 by lia. reflexivity. }
  assert (G : exists d', nbody tops path pfx (x ++ (Some sk, copy_trivia it old) :: y) b2 d' /\ changed (ESet (k_key sk) v) d d').
  2:{ destruct G as (d' & G1 & G2). exists d'. split; [apply set_item_plain; eassumption|]. split; [|split; [exact Eb|split; [exact Bo|split; assumption]]].
  constructor; [exact C'|congruence|]. rewrite Bo. rewrite B, Eb in F. rewrite <- app_assoc in *. cbn [app] in *. apply Forall_app in F as [F1 F2]. inversion F2; subst. apply Forall_app. split; [assumption|]. constructor; [|assumption].
    cbn [snd]. apply oi_other, plain_not_table, plain_copy, P. }
  assert (Oth : forall f, In f (x ++ y ++ b2) -> ~ has_key (k_key sk) f). { apply (others_key c _ i x (Some sk, old) (y ++ b2) C M); [rewrite B, Eb, <- app_assoc; reflexivity|congruence]. }
  destruct H as [tops path pfx b1 b2 ps l H1 H2 Nd]. subst b1. destruct (nlines_cut _ _ _ _ H1) as (l1 & A1 & A2).
  assert (Ho : exists v0, nline (Some sk, old) (Some ([k_key sk], v0))). { inversion A2 as [|? ? ? ? He|? names v0 ? ? ? ? He]; subst; inversion He; subst; [eauto|destruct Po]. }
  destruct Ho as [v0 Ho]. destruct (nlines_set x sk old (copy_trivia it old) v0 v' y ps H1 Ho (old_line _ _ _ _ _ P Tr D St Ho Po)) as [A3 Ik]. { intros e He. apply Oth. rewrite app_assoc. apply in_or_app. left. exact He. }
  assert (Np : NoDup (map fst ps)). { rewrite map_app, dict_of_keys in Nd. clear -Nd. induction (map fst ps) as [|a q IH]; [constructor|]. cbn [app] in Nd. apply NoDup_cons_iff in Nd as [A B]. constructor; [rewrite in_app_iff in A; tauto|auto]. }
  eexists. split; [constructor; [exact A3|exact H2|]|].
  - rewrite map_app, dict_of_keys, upd_keys. rewrite map_app, dict_of_keys in Nd. exact Nd.
  - destruct (upd_split (k_key sk) (Value v') ps Ik Np) as (a & x0 & b & E1 & Na & E2). rewrite E2. rewrite E1. rewrite !dict_of_app. cbn [dict_of map fst snd node_value]. fold (dict_of b). rewrite <- !app_assoc. cbn [app].
    apply ch_old; [|exact Q|reflexivity]. rewrite E1 in Nd. rewrite !map_app, dict_of_app, map_app in Nd. cbn [dict_of map fst] in Nd. fold (dict_of b) in Nd. rewrite <- app_assoc in Nd. cbn [app] in Nd. apply NoDup_remove_2 in Nd. rewrite !map_app. exact Nd.
Qed.

(** * A key goes *)
Lemma erased_body c k ci : consistent c -> map_get k (c_map c) = Some ci -> fold_left (fun b x => list_set x (None, INull) b) (idxs ci) (c_body c) = map (erase k) (c_body c).
Proof.
  intros [M [F _]] H. apply list_ext. intros i. rewrite nth_null_fold, nth_error_map. destruct (existsb (Nat.eqb i) (idxs ci)) eqn:E.
  - apply existsb_exists in E as (j & E & Ej). apply Nat.eqb_eq in Ej. subst j. destruct (M _ _ H) as (_ & _ & A). rewrite Forall_forall in A. destruct (A _ E) as (sk & v & N & K & _). rewrite N. cbn [option_map]. assert (L : i < List.length (c_body c)) by (apply nth_error_Some; congruence).
    destruct (Nat.ltb_spec i (List.length (c_body c))); [|lia]. unfold erase. cbn [fst]. rewrite K, str_eqb_refl. reflexivity.
  - destruct (nth_error (c_body c) i) as [[[sk|] v]|] eqn:N; cbn [option_map]; try reflexivity. unfold erase. cbn [fst]. destruct (str_eqb (k_key sk) k) eqn:Ek; [|reflexivity]. apply str_eqb_eq in Ek.
    destruct (F _ _ _ N) as (cj & E1 & I1). rewrite Ek, H in E1. injection E1 as <-. assert (X : existsb (Nat.eqb i) (idxs ci) = true) by (apply existsb_exists; exists i; split; [exact I1|apply Nat.eqb_refl]). congruence.
Qed.
Lemma ok_erase k e : ok_item (snd e) -> ok_item (snd (erase k e)).
Proof. intros H. unfold erase. destruct (fst e); [|exact H]. destruct (str_eqb _ _); [apply oi_other; reflexivity|exact H]. Qed.
Lemma del_neat tops path pfx c b1 b2 d k : ok_cont c -> c_body c = b1 ++ b2 -> nbody tops path pfx b1 b2 d -> map_get k (c_map c) <> None ->
  exists c' d', remove c k = Ok c' /\ ok_cont c' /\ c_body c' = map (erase k) b1 ++ map (erase k) b2 /\ nbody tops path pfx (map (erase k) b1) (map (erase k) b2) d' /\ changed (EDel k) d d'.
Proof.
  intros [c0 C Pr F] B H M. destruct (map_get k (c_map c0)) as [ci|] eqn:Em; [|contradiction]. clear M. destruct (remove_ok c0 k ci C Em) as (c' & E & C' & _ & P' & B' & _). rewrite (erased_body c0 k ci C Em) in B'.
  assert (Ik : In k (map fst d)). { rewrite (nbody_keys _ _ _ _ _ _ H), <- B. destruct C as [Mo _]. destruct (Mo _ _ Em) as (A1 & _ & A). destruct (idxs ci) as [|i r] eqn:Ei.
    { destruct (roomy_ne _ A1 Ei). }
    rewrite Forall_forall in A. destruct (A i (or_introl eq_refl)) as (sk & v & N & K & _). exists (Some sk, v). split; [eapply nth_error_In, N|exists sk; auto]. }
  exists c', (delp k d). split; [exact E|]. split; [|split; [rewrite B', B, map_app; reflexivity|]].
  - constructor; [exact C'|congruence|]. rewrite B'. apply Forall_map. eapply Forall_impl; [|exact F]. intros e He. apply ok_erase, He.
  - destruct H as [tops path pfx b1 b2 ps l H1 H2 Nd]. split.
    + unfold delp at 1. rewrite filter_app. fold (delp k (dict_of ps)) (delp k l). rewrite <- dele_dict. constructor.
      * pose proof (nlines_erase k _ _ _ H1) as X. exact X.
      * apply ntables_erase, H2.
      * rewrite dele_dict. unfold delp. rewrite <- filter_app. apply delp_nodup, Nd.
    + destruct (split_key k _ Ik Nd) as (a & x & b & Ed & Na). rewrite Ed. rewrite (delp_split k a b x Na). constructor. exact Na.
Qed.

(** * One operation *)
Definition plain_at (c : container) (k : str) : Prop := exists it, get_item c k = Some it /\ plain it.
(** An array of tables; a table (not written by dotted keys). *)
Definition array_at (c : container) (k : str) (l : list (container * tmeta)) : Prop := exists n q t, get_item c k = Some (IAoT l n q t).
Definition dict_at (c : container) (k : str) : Prop := exists m t, table_at None c [Edit.Key k] = Some (Some m, t).
Definition super_of (m : option tmeta) : bool := match m with Some m => match tm_super m with Some b => b | None => false end | None => false end.
Lemma bare_part (x : list entry) sk it it' y : Forall bare_entry (x ++ (Some sk, it) :: y) -> plain it' -> Forall bare_entry (x ++ (Some sk, it') :: y).
Proof. intros F P. apply Forall_app in F as [F1 F2]. inversion F2; subst. apply Forall_app. split; [assumption|]. constructor; [|assumption]. right. split; [discriminate|exact P]. Qed.
Lemma bare_new (x : list entry) sk it y : Forall bare_entry (x ++ y) -> plain it -> Forall bare_entry (x ++ (Some sk, it) :: y).
Proof. intros F P. apply Forall_app in F as [F1 F2]. apply Forall_app. split; [assumption|]. constructor; [|assumption]. right. split; [discriminate|exact P]. Qed.
Lemma bare_erase k es : Forall bare_entry es -> Forall bare_entry (map (erase k) es).
Proof. intros F. apply Forall_map. eapply Forall_impl; [|exact F]. intros e He. unfold erase. destruct (fst e); [|exact He]. destruct (str_eqb _ _); [left; repeat split|exact He]. Qed.
Record done (super : bool) (tops path : list str) (pfx : option str) (b1 b2 : list entry) (d : list (str * pyv)) (o : eop) (c' : container) (b1' b2' : list entry) (d' : list (str * pyv)) : Prop := {
  dn_ok : ok_cont c'; dn_body : c_body c' = b1' ++ b2'; dn_neat : nbody tops path pfx b1' b2' d'; dn_changed : changed o d d';
  dn_bare : Forall bare_entry b1 -> Forall bare_entry b1'; dn_keyed : super = true -> keyed_in (b1 ++ b2) -> keyed_in (b1' ++ b2') }.
Lemma get_plain c k : consistent c -> plain_at c k -> exists i sk it, map_get k (c_map c) = Some (One i) /\ nth_error (c_body c) i = Some (Some sk, it) /\ k_key sk = k /\ plain it.
Proof.
  intros C (it & G & P). unfold get_item in G. destruct (map_get k (c_map c)) as [[i|]|] eqn:M; try discriminate. destruct (get_one _ _ _ C M) as (sk & v & N & K & _). rewrite N in G. injection G as <-. exists i, sk, v. auto.
Qed.
Lemma done_split super tops path pfx b1 u b2 d (P : container -> Prop) o : Forall void_entry u ->
  (exists c' b1' b2' d', P c' /\ done super tops path pfx (b1 ++ u) b2 d o c' b1' b2' d') -> exists c' b1' b2' d', P c' /\ done super tops path pfx b1 (u ++ b2) d o c' b1' b2' d'.
Proof.
  intros Fu (c' & b1' & b2' & d' & E & [A1 A2 A3 A4 A5 A6]). exists c', b1', b2', d'. split; [exact E|]. split; auto.
  - intros Fb. apply A5, Forall_app. split; [exact Fb|]. eapply Forall_impl; [|exact Fu]. intros e He. left. exact He.
  - rewrite app_assoc. exact A6.
Qed.
Lemma set_done m tops path pfx c b1 b2 d k v it v' : ok_cont c -> c_body c = b1 ++ b2 -> nbody tops path pfx b1 b2 d -> (~ In k (c_dict c) \/ plain_at c k) ->
  plain it -> item_trivia it = default_trivia -> snug it v' -> (forall t, item_string (set_trivia t it) = item_string it) -> pyeq v v' ->
  exists c' b1' b2' d', match m with None => set_item c k it | Some m => table_set m c k it end = Ok c' /\ done (super_of m) tops path pfx b1 b2 d (ESet k v) c' b1' b2' d'.
Proof.
  intros O B H L P Tr D St Q. destruct (ok_parts c O) as (C & Pr & F). destruct L as [L|L].
  - destruct (resplit _ _ _ _ _ _ H) as (u & b2' & -> & Fu & Fr & Hr). apply (done_split (super_of m) tops path pfx b1 u b2' d _ _ Fu). rewrite app_assoc in B. clear H. rename Hr into H. set (b0 := b1 ++ u) in *. clearbody b0. clear b1 Fu. rename b0 into b1. rename b2' into b2.
    assert (M : map_get k (c_map c) = None). { destruct (map_get k (c_map c)) eqn:E; [|reflexivity]. exfalso. apply L, (consistent_dict c k C). congruence. }
    destruct (add_neat tops path pfx c b1 b2 d k it v O B Fr H M P) as (c1 & x & y & E & Eb & B1 & O1 & M1 & G).
    assert (Hl : forall t, tidy t -> nline (Some (skey_of_str k), set_trivia t it) (Some ([k], v'))) by (intros t; apply new_line; assumption).
    assert (X : exists c' it2, match m with None => set_item c k it | Some m => table_set m c k it end = Ok c' /\ ok_cont c' /\ c_body c' = x ++ (Some (skey_of_str k), it2) :: y ++ b2 /\ plain it2 /\ nline (Some (skey_of_str k), it2) (Some ([k], v'))).
    { assert (Hd : set_trivia (item_trivia it) it = it) by (destruct it; try destruct P; reflexivity). pose proof (Hl default_trivia tidy_default) as H0. rewrite <- Tr, Hd in H0.
      destruct m as [m|]; [|exists c1, it; split; [exact E|]; split; [exact O1|]; split; [exact B1|]; split; [exact P|exact H0]].
      unfold table_set. destruct (app_fuel_pos c (Some (KSingle (skey_of_str k))) it) as [n ->].
      change (contains (S (S (S n))) c k) with (match map_get k (c_map c) with
        | None => Ok false | Some (One _) => Ok true
        | Some (Many l) => match proxy (S (S n)) c l with Ok _ => Ok true | Err (NonExistentKeyE _) => Ok false | Err e => Err e end end).
      rewrite M, E. cbn [rbind]. destruct (first_spaces (tr_indent (tm_trivia m))) as [ind|] eqn:Fs; [|exists c1, it; split; [reflexivity|]; split; [exact O1|]; split; [exact B1|]; split; [exact P|exact H0]].
      rewrite M1. assert (N1 : nth_error (c_body c1) (List.length x) = Some (Some (skey_of_str k), it)) by (rewrite B1, nth_error_app2, Nat.sub_diag by lia; reflexivity). rewrite N1.
      assert (Ei : item_indent_insert ind it = set_trivia (with_indent ind default_trivia) it). { unfold item_indent_insert. rewrite Tr. destruct it; try destruct P; cbn; rewrite app_nil_r; reflexivity. }
      rewrite Ei. eexists _, _. split; [reflexivity|]. split; [eapply ok_set; [exact O1|exact N1| |]; [destruct it; try destruct P; reflexivity|apply oi_other, plain_not_table, plain_set_trivia, P]|].
      split; [destruct c1 as [bd ? ? ? ?]; cbn [set_body c_body] in *; rewrite (set_split _ _ _ _ N1), B1; rewrite firstn_app, firstn_all, Nat.sub_diag; cbn [firstn]; rewrite app_nil_r; f_equal; f_equal; rewrite skipn_app, (skipn_all2 x) by lia; replace (S (List.length x) - List.length x) with 1 by lia; reflexivity|].
      split; [apply plain_set_trivia, P|apply Hl, tidy_indent; [eapply spaces_blanks; exact Fs|apply tidy_default]]. }
    destruct X as (c' & it2 & E2 & O2 & B2 & P2 & L2). destruct (G it2 v v' L2 Q eq_refl) as (d' & H' & Ch). exists c', (x ++ (Some (skey_of_str k), it2) :: y), b2, d'. split; [exact E2|]. split; auto.
    + rewrite B2, <- app_assoc. reflexivity.
    + subst b1. intros Fb. apply bare_new; assumption.
    + intros _ _. exists (Some (skey_of_str k), it2). split; [apply in_or_app; left; apply in_or_app; right; left; reflexivity|discriminate].
  - destruct (get_plain c k C L) as (i & sk & old & M & N & K & Po). subst k. destruct (set_neat tops path pfx c b1 b2 d i sk old it v v' O B H M N Po P Tr D St Q) as (c' & x & y & d' & E & O' & Eb & B' & H' & Ch).
    exists c', (x ++ (Some sk, copy_trivia it old) :: y), b2, d'. split.
    + destruct m as [m|]; [|exact E]. unfold table_set. destruct (app_fuel_pos c (Some (KSingle (skey_of_str (k_key sk)))) it) as [n ->].
      change (contains (S (S (S n))) c (k_key sk)) with (match map_get (k_key sk) (c_map c) with
        | None => Ok false | Some (One _) => Ok true
        | Some (Many l) => match proxy (S (S n)) c l with Ok _ => Ok true | Err (NonExistentKeyE _) => Ok false | Err e => Err e end end).
      rewrite M, E. reflexivity.
    + split; auto; [subst b1; intros Fb; eapply bare_part; [exact Fb|apply plain_copy, P]|]. intros _ _. exists (Some sk, copy_trivia it old). split; [apply in_or_app; left; apply in_or_app; right; left; reflexivity|discriminate].
Qed.

(** * The place of a table *)
Lemma table_place tops path pfx b1 b2 d i sk it : nbody tops path pfx b1 b2 d -> nth_error (b1 ++ b2) i = Some (Some sk, it) -> k_dotted sk = false -> is_table_or_aot it = true ->
  exists x y a v b, b2 = x ++ (Some sk, it) :: y /\ i = List.length (b1 ++ x) /\ d = a ++ (k_key sk, v) :: b /\ ~ In (k_key sk) (map fst (a ++ b)) /\ ntable tops path pfx sk it v /\
    forall it' v', ntable tops path pfx sk it' v' -> nbody tops path pfx b1 (x ++ (Some sk, it') :: y) (a ++ (k_key sk, v') :: b).
Proof.
  intros H N Kd T. destruct H as [tops path pfx b1 b2 ps l H1 H2 Nd]. destruct (Nat.lt_ge_cases i (List.length b1)) as [Li|G].
  - exfalso. rewrite nth_error_app1 in N by exact Li. apply nth_error_split in N as (x & y & -> & _). destruct (nlines_cut _ _ _ _ H1) as (l1 & _ & A2).
    inversion A2 as [|? ? ? ? He|? names v0 ? ? ? ? He]; subst; inversion He as [|? ? ? P|? ? ? ? ? ? ? ? ? ? Kt]; subst; [apply plain_not_table in P; congruence|congruence].
  - rewrite nth_error_app2 in N by exact G. apply nth_error_split in N as (x & y & -> & Lx). destruct (ntables_cut _ _ _ _ _ _ _ H2) as (sk' & it' & v & l1 & l2 & E & -> & Nt & Re); [discriminate|]. injection E as <- <-.
    exists x, y, (dict_of ps ++ l1), v, l2. split; [reflexivity|]. split; [rewrite app_length; lia|]. split; [rewrite <- app_assoc; reflexivity|].
    assert (Na : ~ In (k_key sk) (map fst ((dict_of ps ++ l1) ++ l2))). { rewrite app_assoc, map_app in Nd. cbn [map fst] in Nd. apply NoDup_remove_2 in Nd. rewrite map_app. exact Nd. }
    split; [exact Na|]. split; [exact Nt|]. intros it2 v2 N2. rewrite <- app_assoc. constructor; [exact H1|apply Re, N2|]. rewrite !map_app in *. cbn [map fst] in *. exact Nd.
Qed.
Lemma set_middle {A} (a : list A) e e' b : list_set (List.length a) e' (a ++ e :: b) = a ++ e' :: b.
Proof. induction a as [|x a IH]; [reflexivity|]. cbn [List.length list_set app]. rewrite IH. reflexivity. Qed.

(** * A new table *)
Lemma dress_any c k i : c_parsed c = false -> tabv i -> exists b, pre_append c (Some (skey_of_str k)) (set_name k i) = dress b k i.
Proof.
  destruct c as [body m p tks d]. cbn [c_parsed]. intros -> [(_ & _ & Iv) H]. destruct i as [ | | | | | |tc tm|l n q t]; try (exfalso; exact H).
  - subst tm. cbn [set_name pre_append tm_name]. match goal with |- context [inval_item ?X] => assert (Iv' : inval_item X = X) end. { cbn [inval_item tm_trivia tm_aot tm_super tm_name tm_disp] in Iv |- *. injection Iv as Iv. rewrite Iv. reflexivity. }
    rewrite Iv'. match goal with |- context [if ?x then set_trivia _ _ else _] => exists x; destruct x; reflexivity end.
  - destruct l as [|x l]; [destruct H|]. destruct H as [-> Hx]. cbn [set_name pre_append]. assert (Iv' : inval_item (IAoT (x :: l) (Some k) q t) = IAoT (x :: l) (Some k) q t). { cbn [inval_item] in Iv |- *. apply (f_equal (fun i => match i with IAoT l _ _ _ => l | _ => [] end)) in Iv. cbv beta iota in Iv. rewrite Iv. reflexivity. }
    rewrite Iv', Hx. destruct (_ && _); [|exists false; reflexivity]. destruct (negb _); [exists true|exists false]; reflexivity.
Qed.
Lemma ok_indent ind i : ok_item i -> ok_item (item_indent_insert ind i).
Proof. intros H. unfold item_indent_insert. destruct (is_wsitem i); [exact H|]. destruct H as [c m H|l n p t H|i T]; cbn [set_trivia]; [constructor; exact H|constructor; exact H|]. apply oi_other. destruct i; try discriminate T; reflexivity. Qed.
Lemma table_new m tops path pfx c b1 b2 d k v i v' : ok_cont c -> c_body c = b1 ++ b2 -> nbody tops path pfx b1 b2 d -> ~ In k (c_dict c) -> tabv i -> ok_item i ->
  (forall w, variant i w -> ntable tops path pfx (skey_of_str k) w v') -> pyeq v v' ->
  exists c' b2', match m with None => set_item c k i | Some m => table_set m c k i end = Ok c' /\ done (super_of m) tops path pfx b1 b2 d (ESet k v) c' b1 b2' (d ++ [(k, v')]).
Proof.
  intros O B H L T Oi Nv Q. destruct (ok_parts c O) as (C & Pr & F). assert (M : map_get k (c_map c) = None). { destruct (map_get k (c_map c)) eqn:E; [|reflexivity]. exfalso. apply L, (consistent_dict c k C). congruence. }
  destruct (set_table c k i C Pr (tabv_table i T) M) as (c1 & E & [S1 S2 S3 S4 S5]). destruct (dress_any c k i Pr T) as [b Eb]. rewrite Eb in *. set (w := dress b k i) in *.
  assert (Vw : variant i w) by apply dress_variant, T. assert (Ow : ok_item w) by (eapply variant_ok; eassumption).
  assert (Nk : ~ In k (map fst d)). { rewrite (nbody_keys _ _ _ _ _ _ H). intros (e & I & K). rewrite <- B in I. exact (absent_key _ _ _ C M I K). }
  assert (O1 : ok_cont c1). { constructor; [exact S1|exact S2|]. rewrite S4. apply Forall_app. split; [exact F|]. constructor; [exact Ow|constructor]. }
  assert (X : exists c' w', match m with None => set_item c k i | Some m => table_set m c k i end = Ok c' /\ ok_cont c' /\ c_body c' = c_body c ++ [(Some (skey_of_str k), w')] /\ ntable tops path pfx (skey_of_str k) w' v').
  { destruct m as [m|]; [|exists c1, w; split; [exact E|]; split; [exact O1|]; split; [exact S4|apply Nv, Vw]].
    unfold table_set. destruct (app_fuel_pos c (Some (KSingle (skey_of_str k))) i) as [n ->].
    change (contains (S (S (S n))) c k) with (match map_get k (c_map c) with
        | None => Ok false | Some (One _) => Ok true
        | Some (Many l) => match proxy (S (S n)) c l with Ok _ => Ok true | Err (NonExistentKeyE _) => Ok false | Err e => Err e end end).
    rewrite M, E. cbn [rbind]. destruct (first_spaces (tr_indent (tm_trivia m))) as [ind|] eqn:Fs; [|exists c1, w; split; [reflexivity|]; split; [exact O1|]; split; [exact S4|apply Nv, Vw]].
    assert (N1 : nth_error (c_body c1) (List.length (c_body c)) = Some (Some (skey_of_str k), w)) by (rewrite S4, nth_error_app2, Nat.sub_diag by lia; reflexivity).
    assert (M1 : map_get k (c_map c1) = Some (One (List.length (c_body c)))).
    { unfold get_item in S5. destruct (map_get k (c_map c1)) as [[j|]|] eqn:Em; try discriminate. f_equal. f_equal. symmetry. eapply one_index; [exact S1|exact Em|exact N1|apply skey_of_str_key]. }
    rewrite M1, N1. eexists _, (item_indent_insert ind w). split; [reflexivity|]. split; [|split].
    - eapply ok_set; [exact O1|exact N1| |apply ok_indent, Ow]. unfold item_indent_insert. destruct w; reflexivity.
    - destruct c1 as [bd ? ? ? ?]. cbn [set_body c_body] in *. rewrite S4, set_middle. reflexivity.
    - apply ntable_indent; [eapply spaces_blanks; exact Fs|apply Nv, Vw]. }
  destruct X as (c' & w' & E' & O' & B' & N'). exists c', (b2 ++ [(Some (skey_of_str k), w')]). split; [exact E'|]. split; auto.
  - rewrite B', B, <- app_assoc. reflexivity.
  - destruct H as [tops path pfx b1 b2 ps l H1 H2 Nd]. rewrite <- app_assoc. rewrite <- (skey_of_str_key k) at 2. constructor; [exact H1|apply ntables_app; [exact H2|apply nt_cons; [exact N'|constructor]]|].
    rewrite skey_of_str_key, app_assoc. pose proof (nodup_insert (dict_of ps ++ l) [] k v') as X. rewrite !app_nil_r in X. apply X; assumption.
  - rewrite <- (app_nil_r d) at 1. constructor; [rewrite app_nil_r; exact Nk|exact Q].
  - intros _ _. exists (Some (skey_of_str k), w'). split; [apply in_or_app; right; apply in_or_app; right; left; reflexivity|discriminate].
Qed.

(** * A table in the place of another *)
Lemma dict_set_old k d : In k d -> dict_set k d = d.
Proof. intros H. unfold dict_set. apply existsb_in in H. rewrite H. reflexivity. Qed.
Lemma set_item_table c i sk old it : consistent c -> map_get (k_key sk) (c_map c) = Some (One i) -> nth_error (c_body c) i = Some (Some sk, old) -> is_table_or_aot old = true -> tabv it ->
  (is_table it = true -> tidyh (item_trivia old)) ->
  exists w, variant it w /\ set_item c (k_key sk) it = Ok (ContOps.put c i (Some sk, w) (map_set (k_key sk) (One i) (map_del (k_key sk) (c_map c)))).
Proof.
  intros C M N To T Tr. pose proof (tabv_table it T) as Ti. assert (Hd : In (k_key sk) (c_dict c)) by (apply (consistent_dict c _ C); congruence).
  unfold set_item. destruct (app_fuel_pos c (Some (KSingle (skey_of_str (k_key sk)))) it) as [n ->].
  change (contains (S (S (S n))) c (k_key sk)) with (match map_get (k_key sk) (c_map c) with
      | None => Ok false | Some (One _) => Ok true
      | Some (Many l) => match proxy (S (S n)) c l with Ok _ => Ok true | Err (NonExistentKeyE _) => Ok false | Err e => Err e end end).
  rewrite M. cbn [rbind]. destruct c as [body m p tks d]. cbn [c_body c_map c_dict] in *. remember (S (S n)) as fu. cbn [replace_at]. rewrite N. rewrite Ti, To. cbn [xorb orb]. rewrite str_eqb_refl. cbn [negb rbind c_body].
  set (lastix := match last_nonnull _ 0 None with Some (i, _) => i | None => 0 end). clearbody lastix.
  assert (Hlt : (i <? List.length body) = true) by (apply Nat.ltb_lt, nth_error_Some; congruence).
  rewrite nth_list_set, Nat.eqb_refl, Hlt. destruct T as [(_ & _ & Iv) T]. destruct it as [ | | | | | |tc tm|L nm q t]; try (exfalso; exact T).
  - subst tm. cbn [copy_trivia item_trivia tm_trivia default_trivia tr_cws tr_comment or_str set_trivia set_tm_trivia tm_aot tm_super tm_name tm_disp]. specialize (Tr eq_refl).
    match goal with |- context [inval_item ?X] => assert (Iv' : inval_item X = X) end. { cbn [inval_item tm_trivia tm_aot tm_super tm_name tm_disp] in Iv |- *. injection Iv as Iv. rewrite Iv. reflexivity. }
    rewrite Iv'. set (tr := mkTrivia _ _ _ _) in *. assert (Et : tr = item_trivia old) by (subst tr; destruct (item_trivia old); reflexivity). rewrite Et in *. rewrite (dict_set_old _ _ Hd), list_set_twice. unfold ContOps.put.
    match goal with |- context [if ?x then table_push_ws ?a ?b else ?e] => exists (if x then table_push_ws a b else e); destruct x end; (split; [|reflexivity]); constructor; auto.
  - destruct L as [|x L]; [destruct T|]. cbn [copy_trivia]. rewrite Iv. cbn [set_body]. rewrite list_set_twice. exists (IAoT (x :: L) nm q t). split; [|reflexivity]. apply (va_aot x L nm q t nm q t false).
Qed.
Lemma put_middle c i sk w mp (x : list entry) e y : c_body c = x ++ e :: y -> i = List.length x -> c_body (ContOps.put c i (Some sk, w) mp) = x ++ (Some sk, w) :: y.
Proof. intros B ->. rewrite put_body, B. apply set_middle. Qed.
Lemma table_over m tops path pfx c b1 b2 d i sk old v it v' : ok_cont c -> c_body c = b1 ++ b2 -> nbody tops path pfx b1 b2 d -> map_get (k_key sk) (c_map c) = Some (One i) -> nth_error (c_body c) i = Some (Some sk, old) ->
  k_dotted sk = false -> is_table_or_aot old = true -> (is_aot old = true -> is_table it = false) -> tabv it -> ok_item it ->
  (name_means (k_orig sk) (k_key sk) -> forall w, variant it w -> ntable tops path pfx sk w v') -> pyeq v v' ->
  exists c' b2' d', match m with None => set_item c (k_key sk) it | Some m => table_set m c (k_key sk) it end = Ok c' /\ done (super_of m) tops path pfx b1 b2 d (ESet (k_key sk) v) c' b1 b2' d'.
Proof.
  intros O B H M N Kd To Ha T Oi Nv Q. destruct (ok_parts c O) as (C & Pr & F). pose proof N as N'. rewrite B in N'. destruct (table_place _ _ _ _ _ _ _ _ _ H N' Kd To) as (x & y & a & v0 & b & Eb & Ei & Ed & Na & Nt & Re).
  destruct (set_item_table c i sk old it C M N To T) as (w & Vw & E). { intros Ti. inversion Nt; subst; try assumption. specialize (Ha eq_refl). congruence. }
  pose proof (put_ok c i sk old w C M N) as (C' & _ & P' & _). cbv zeta in *. remember (ContOps.put c i (Some sk, w) _) as c' eqn:Ec. exists c', (x ++ (Some sk, w) :: y), (a ++ (k_key sk, v') :: b).
  assert (Bo : c_body c' = b1 ++ x ++ (Some sk, w) :: y). { rewrite Ec. rewrite app_assoc. eapply put_middle; [rewrite B, Eb, app_assoc; reflexivity|exact Ei]. }
  split.
  - destruct m as [m|]; [|exact E]. unfold table_set. destruct (app_fuel_pos c (Some (KSingle (skey_of_str (k_key sk)))) it) as [n ->].
    change (contains (S (S (S n))) c (k_key sk)) with (match map_get (k_key sk) (c_map c) with
      | None => Ok false | Some (One _) => Ok true
      | Some (Many l) => match proxy (S (S n)) c l with Ok _ => Ok true | Err (NonExistentKeyE _) => Ok false | Err e => Err e end end).
    rewrite M, E. reflexivity.
  - split; auto.
    + constructor; [exact C'|congruence|]. rewrite Bo. rewrite B, Eb in F. rewrite app_assoc in F |- *. apply Forall_app in F as [F1 F2]. inversion F2; subst. apply Forall_app. split; [exact F1|]. constructor; [|assumption]. cbn [snd]. eapply variant_ok; eassumption.
    + apply Re, Nv; [|exact Vw]. inversion Nt; assumption.
    + rewrite Ed. apply ch_old; auto.
    + intros _ _. exists (Some sk, w). split; [apply in_or_app; right; apply in_or_app; right; left; reflexivity|discriminate].
Qed.

(** * Into an array of tables *)
Lemma nelems_app tops path key L1 ds1 L2 ds2 : nelems tops path key L1 ds1 -> nelems tops path key L2 ds2 -> nelems tops path key (L1 ++ L2) (ds1 ++ ds2).
Proof. induction 1; intros; [assumption|]. cbn [app]. econstructor; eauto. Qed.
Lemma nelems_split tops path key L1 L2 ds : nelems tops path key (L1 ++ L2) ds -> exists ds1 ds2, ds = ds1 ++ ds2 /\ List.length ds1 = List.length L1 /\ nelems tops path key L1 ds1 /\ nelems tops path key L2 ds2.
Proof.
  revert ds. induction L1 as [|[c m] L1 IH]; intros ds H; cbn [app] in H; [exists [], ds; repeat split; auto; constructor|]. inversion H as [|? ? ? ? ? ? b1 b2 d ds' Ti Km B Nb H']; subst. destruct (IH _ H') as (ds1 & ds2 & -> & Ll & A1 & A2).
  exists (d :: ds1), ds2. split; [reflexivity|]. split; [cbn; congruence|]. split; [econstructor; eauto|exact A2].
Qed.
Lemma nelems_length tops path key L ds : nelems tops path key L ds -> List.length ds = List.length L.
Proof. induction 1; cbn; congruence. Qed.
Lemma tidyh_nl t : tidyh t -> tidyh (with_indent (10%N :: tr_indent t) t).
Proof. intros (E & R). split; [|exact R]. constructor; [left; reflexivity|exact E]. Qed.
Definition same_elem (x y : DumpRender.tab) : Prop := fst x = fst y /\ (tidyh (tm_trivia (snd x)) -> tidyh (tm_trivia (snd y))).
Lemma same_refl x : same_elem x x.
Proof. split; auto. Qed.
Lemma same_nl x : same_elem x (nl_indent x).
Proof. destruct x as [c m]. split; [reflexivity|]. cbn. apply tidyh_nl. Qed.
Lemma nelems_same tops path key L L' ds : Forall2 same_elem L L' -> nelems tops path key L ds -> nelems tops path key L' ds.
Proof. intros F. revert ds. induction F as [|[c m] [c' m'] L L' [E T] F IH]; intros ds H; inversion H; subst; [constructor|]. cbn [fst snd] in *. subst c'. econstructor; eauto. Qed.
Lemma forall2_same L : Forall2 same_elem L L.
Proof. induction L; constructor; auto using same_refl. Qed.
Lemma set_same L : forall i x y, nth_error L i = Some x -> same_elem x y -> Forall2 same_elem L (list_set i y L).
Proof. induction L as [|z L IH]; intros [|i] x y N S; try discriminate; cbn [nth_error list_set] in *; [injection N as ->; constructor; [exact S|apply forall2_same]|]. constructor; [apply same_refl|eapply IH; eauto]. Qed.
Lemma insert_elems l p t j x : exists x' l', same_elem x x' /\ Forall2 same_elem l l' /\ aot_insert l p t j x = firstn (py_insert_pos (List.length l) j) l' ++ x' :: skipn (py_insert_pos (List.length l) j) l'.
Proof.
  unfold aot_insert. rewrite insert_pos. set (i := py_insert_pos _ _).
  set (x1 := match first_spaces (tr_indent t) with Some ind => _ | None => x end). assert (S1 : same_elem x x1).
  { subst x1. destruct (first_spaces (tr_indent t)) as [ind|] eqn:Fs; [|apply same_refl]. destruct x as [c m]. split; [reflexivity|]. cbn. intros H. apply tidyh_insert; [eapply spaces_blanks, Fs|exact H]. }
  clearbody x1. destruct p; [exists x1, l; split; [exact S1|]; split; [apply forall2_same|reflexivity]|]. cbv zeta.
  set (x2 := if _ && _ then nl_indent x1 else x1). set (l2 := if S i <? List.length l then _ else l). exists x2, l2. split; [|split; [|reflexivity]].
  - subst x2. destruct (_ && _); [|exact S1]. destruct S1 as [A B]. destruct x1 as [c m]. split; [exact A|]. intros H. apply (proj2 (same_nl (c, m))), B, H.
  - subst l2. clear x2. destruct (_ <? _); [|apply forall2_same]. destruct (nth_error l (S i)) as [y|] eqn:N; [|apply forall2_same]. destruct (_ && _); [|apply forall2_same]. eapply set_same; [exact N|apply same_nl].
Qed.
Lemma get_array tops path pfx c b1 b2 d k l : ok_cont c -> c_body c = b1 ++ b2 -> nbody tops path pfx b1 b2 d -> array_at c k l ->
  exists i sk n q t, map_get k (c_map c) = Some (One i) /\ nth_error (c_body c) i = Some (Some sk, IAoT l n q t) /\ k_key sk = k /\ k_dotted sk = false.
Proof.
  intros O B H (n & q & t & G). destruct (ok_parts c O) as (C & _ & _). unfold get_item in G. destruct (map_get k (c_map c)) as [[i|]|] eqn:M; try discriminate. destruct (get_one _ _ _ C M) as (sk & v & N & K & _). rewrite N in G. injection G as ->.
  exists i, sk, n, q, t. repeat (split; [assumption || reflexivity|]). destruct H as [tops path pfx b1 b2 ps dl H1 H2 Nd]. assert (Ib : In (Some sk, IAoT l n q t) (b1 ++ b2)) by (rewrite <- B; eapply nth_error_In, N). apply in_app_iff in Ib as [Ib|Ib].
  - exfalso. apply in_split in Ib as (x & y & ->). destruct (nlines_cut _ _ _ _ H1) as (l1 & _ & A2). inversion A2 as [|? ? ? ? He|? names v0 ? ? ? ? He]; subst; inversion He as [|? ? ? P|]; subst. destruct P.
  - apply ntables_entry in H2. rewrite Forall_forall in H2. destruct (H2 _ Ib) as [[X _]|(s2 & E2 & Kd & _)]; [discriminate|]. injection E2 as <-. exact Kd.
Qed.
Lemma array_change super tops path pfx c b1 b2 d k l o (f : list DumpRender.tab -> bool -> trivia -> res (list DumpRender.tab)) : ok_cont c -> c_body c = b1 ++ b2 -> nbody tops path pfx b1 b2 d -> array_at c k l ->
  (forall q t ds key, key_means key (path ++ [k]) -> nelems (match path with [] => k :: tops | _ => tops end) (path ++ [k]) key l ds -> ds <> [] -> pmeans path pfx -> Forall (fun x => ok_cont (fst x)) l ->
     exists l' ds', f l q t = Ok l' /\ ds' <> [] /\ nelems (match path with [] => k :: tops | _ => tops end) (path ++ [k]) key l' ds' /\ Forall (fun x => ok_cont (fst x)) l' /\
       forall a b, ~ In k (map fst (a ++ b)) -> changed o (a ++ (k, PList (map PDict ds)) :: b) (a ++ (k, PList (map PDict ds')) :: b)) -> pmeans path pfx ->
  exists c' b2' d', on_aot c k f = Ok c' /\ done super tops path pfx b1 b2 d o c' b1 b2' d'.
Proof.
  intros O B H A G Hp. destruct (get_array _ _ _ _ _ _ _ _ _ O B H A) as (i & sk & n & q & t & M & N & K & Kd). subst k. unfold on_aot. rewrite M, N.
  pose proof (ok_in c i _ O N) as Oi. cbn [snd] in Oi. pose proof N as N'. rewrite B in N'. destruct (table_place _ _ _ _ _ _ _ _ _ H N' Kd eq_refl) as (x & y & a & v & b & Eb & Ei & Ed & Na & Nt & Re).
  inversion Nt as [| |? ? ? ? ? ? ? ? ds Kd' Nm Nds Ne]; subst v. subst. assert (Fo : Forall (fun x => ok_cont (fst x)) l) by (inversion Oi as [|? ? ? ? Fo|? X]; [exact Fo|discriminate]).
  destruct (G q t ds _ (key_means_snoc _ _ _ _ Hp Nm) Ne Nds Hp Fo) as (l' & ds' & -> & Nd' & Ne' & Fo' & Ch). cbn [rbind].
  eexists _, (x ++ (Some sk, IAoT l' n q t) :: y), (a ++ (k_key sk, PList (map PDict ds')) :: b). split; [reflexivity|]. split; auto.
  - eapply ok_set; [exact O|exact N|reflexivity|]. constructor. exact Fo'.
  - destruct c as [bd ? ? ? ?]. cbn [set_body c_body] in *. rewrite B, app_assoc, set_middle, <- app_assoc. reflexivity.
  - apply Re. apply nt_aot; eassumption.
  - intros _ _. exists (Some sk, IAoT l' n q t). split; [apply in_or_app; right; apply in_or_app; right; left; reflexivity|discriminate].
Qed.
Lemma get_dict c k : consistent c -> dict_at c k -> (exists i sk it, map_get k (c_map c) = Some (One i) /\ nth_error (c_body c) i = Some (Some sk, it) /\ k_key sk = k /\ k_dotted sk = false /\ is_table it = true).
Proof.
  intros C (m & t & T). cbn [table_at] in T. destruct (map_get k (c_map c)) as [[i|]|] eqn:M; try discriminate. destruct (get_one _ _ _ C M) as (sk & v & N & K & _). rewrite N in T. destruct v as [ | | | | | |tc tm|]; try discriminate T.
  destruct (k_dotted sk) eqn:Kd; [discriminate|]. exists i, sk, (ITable tc tm). auto.
Qed.
Lemma same_length L L' : Forall2 same_elem L L' -> List.length L = List.length L'.
Proof. induction 1; cbn; congruence. Qed.
Lemma insert_done super tops path pfx c b1 b2 d k j v l : ok_cont c -> c_body c = b1 ++ b2 -> nbody tops path pfx b1 b2 d -> pmeans path pfx -> py_fine v -> is_dict v = true -> avoids (match path with [] => k :: tops | _ => tops end) v -> array_at c k l ->
  exists c' b2' d', apply_op None c (EInsert k j v) = Ok c' /\ done super tops path pfx b1 b2 d (EInsert k j v) c' b1 b2' d'.
Proof.
  intros O B H Hp Fv Dv Av A. cbn [apply_op]. destruct v as [ | | | | | | | |kvs]; try discriminate Dv. destruct (proj1 (all_neat _ Fv) PkNone eq_refl eq_refl) as (i & E & _). pose proof (proj2 (all_neat _ Fv)) as [Nd K]. 
  assert (X : exists tc tm, i = ITable tc tm /\ tidyh (tm_trivia tm) /\ CN kvs tc).
  { rewrite py_item_dict in E. cbv zeta in E. cbn [pk_inline dict_parent] in E.
    destruct (mapr_forall2 nrel (fun kv : str * pyv => let* i := py_item PkTable (snd kv) in Ok (fst kv, i)) kvs) as (its & E2 & F2).
    { eapply Forall_impl; [|exact K]. intros [k0 x] (j0 & Ej & R). cbn [fst snd] in *. rewrite Ej. exists (k0, j0). split; [reflexivity|exact R]. }
    rewrite E2 in E. cbn [rbind] in E. destruct (made_cont kvs its F2 Nd) as (c0 & E3 & Mc). rewrite E3 in E. cbn [rbind new_dict] in E. injection E as <-. eexists _, _. split; [reflexivity|]. split; [apply tidy_head, tidy_default|exact Mc]. }
  destruct X as (tc & tm & -> & Ti & (Oc & c1 & c2 & l1 & dd & Hb & Fb & Pm & F2 & Nb)). eapply array_change; try eassumption. clear H B O A c b1 b2 d. intros q t ds key Km Ne Nds _ Fo. rewrite E. cbn [rbind].
  destruct (insert_elems l q t j (tc, tm)) as (x' & l' & S1 & S2 & Eq). remember (py_insert_pos (List.length l) j) as p eqn:Ep. pose proof (nelems_same _ _ _ _ _ _ S2 Ne) as Ne2. rewrite <- (firstn_skipn p l') in Ne2.
  destruct (nelems_split _ _ _ _ _ _ Ne2) as (ds1 & ds2 & -> & Ll & A1 & A2). exists (firstn p l' ++ x' :: skipn p l'), (ds1 ++ dd :: ds2). split; [rewrite Eq; reflexivity|]. split; [destruct ds1; discriminate|].
  assert (Lp : List.length (firstn p l') = p). { rewrite firstn_length, <- (same_length _ _ S2). apply Nat.min_l. rewrite Ep. unfold py_insert_pos. lia. }
  split; [|split].
  - apply nelems_app; [exact A1|]. destruct x' as [c' m']. destruct S1 as [Ex Tx]. cbn [fst snd] in *. subst c'. econstructor; [apply Tx, Ti|exact Km|exact Hb| |exact A2]. apply Nb; [exact Km|destruct path; discriminate|exact Av].
  - assert (Fl : Forall (fun x => ok_cont (fst x)) l'). { clear -S2 Fo. induction S2 as [|x y l l' [E _] S2 IH]; [constructor|]. inversion Fo; subst. constructor; [congruence|auto]. }
    rewrite <- (firstn_skipn p l') in Fl. apply Forall_app in Fl as [G1 G2]. apply Forall_app. split; [exact G1|]. constructor; [destruct S1 as [<- _]; exact Oc|exact G2].
  - intros a b Na. rewrite !map_app. cbn [map]. apply ch_insert; [exact Na|eapply nodup_pyeq; eassumption|]. rewrite map_length, Ll, Lp, Ep. f_equal. rewrite <- map_app, map_length, (nelems_length _ _ _ _ _ Ne2), firstn_skipn. apply (same_length _ _ S2).
Qed.
Lemma drop_done super tops path pfx c b1 b2 d k j l : ok_cont c -> c_body c = b1 ++ b2 -> nbody tops path pfx b1 b2 d -> pmeans path pfx -> array_at c k l -> py_index (List.length l) j <> None -> 1 < List.length l ->
  exists c' b2' d', apply_op None c (EDrop k j) = Ok c' /\ done super tops path pfx b1 b2 d (EDrop k j) c' b1 b2' d'.
Proof.
  intros O B H Hp A Hj Hl. cbn [apply_op]. destruct (py_index (List.length l) j) as [p|] eqn:Ep; [clear Hj|contradiction]. eapply array_change; try eassumption. clear H B O A c b1 b2 d. intros q t ds key Km Ne Nds _ Fo. rewrite Ep.
  assert (Lp : p < List.length l). { unfold py_index in Ep. destruct (_ || _)%bool eqn:Eo; [discriminate|]. injection Ep as <-. apply orb_false_iff in Eo as [Eo1 Eo2]. apply Z.ltb_ge in Eo1. apply Z.leb_gt in Eo2. destruct (Z.ltb_spec j 0); clear -Eo1 Eo2 H; lia. }
  destruct (nth_error l p) as [[c m]|] eqn:N; [|apply nth_error_None in N; lia]. pose proof (split_at _ _ _ N) as El. rewrite El in Ne. destruct (nelems_split _ _ _ _ _ _ Ne) as (ds1 & ds2 & -> & Ll & A1 & A2).
  inversion A2 as [|? ? ? ? ? ? c1 c2 dd ds3 Ti Km' Bc Nb A3]; subst. eexists _, (ds1 ++ ds3). split; [reflexivity|]. assert (Lf : List.length (firstn p l) = p) by (rewrite firstn_length; lia). split; [|split; [|split]].
  - intros X. apply app_eq_nil in X as [-> ->]. apply nelems_length in A3. change (0 = List.length (skipn (S p) l)) in A3. rewrite skipn_length in A3. cbn [List.length] in Ll, A3. rewrite <- Ll in Lf. lia.
  - apply nelems_app; assumption.
  - rewrite El in Fo. apply Forall_app in Fo as [G1 G2]. inversion G2; subst. apply Forall_app. auto.
  - intros a b Na. rewrite !map_app. cbn [map]. apply ch_drop; [exact Na|]. rewrite map_length, Ll, Lf. rewrite <- Ep. f_equal. apply (f_equal (@List.length _)) in El. rewrite El, !app_length. cbn [List.length]. rewrite !map_length. pose proof (nelems_length _ _ _ _ _ A3) as X. rewrite Ll. f_equal. f_equal. exact X.
Qed.
