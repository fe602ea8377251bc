(** Memory: what is in memory is what is written (C50). *)
From Verif Require Import Lines Base Source Utils Items Container Arrays Parser Lemmas Consist OMap ContOps ContText Wf Render ListSpec ArrayLemmas ItemInd PyVal PyItem ItemConv Unwrap Grammar Denote Trees Snug Neat DocSpot MadeNeat.
From Coq Require Import Permutation ZifyBool ZifyNat ZifyN.
Open Scope nat_scope.

(** * The entries of a key *)
Definition kept (k : str) (es : list bent) : list (skey * item) :=
  flat_map (fun e : bent => match fst e with Some sk => if str_eqb (k_key sk) k then [(sk, snd e)] else [] | None => [] end) es.
Lemma kept_app k a b : kept k (a ++ b) = kept k a ++ kept k b. Proof. apply flat_map_app. Qed.
Lemma kept_in k es sk it : In (sk, it) (kept k es) -> In (Some sk, it) es /\ k_key sk = k.
Proof.
  intros H. apply in_flat_map in H as ([[sk'|] it'] & I & H); cbn [fst snd] in H; [|destruct H]. destruct (str_eqb (k_key sk') k) eqn:E; [|destruct H]. destruct H as [H|[]]. injection H as -> ->. apply str_eqb_eq in E. auto.
Qed.
Definition tree_stmt (k : str) (x : skey * item) (s : stmt) : Prop := dent (k :: fst s) (snd s) (fst x) (snd x) /\ fst s <> [].
Definition at_entries (n : node) (k : str) (xs : list (skey * item)) : Prop :=
  match n with
  | Value v => exists sk it v', xs = [(sk, it)] /\ says it v' /\ pyeq v' v
  | Names t => xs <> [] /\ exists ss, Forall2 (tree_stmt k) xs ss /\ puts [] ss t
  end.
Definition filed (es : list bent) (t : tree) : Prop :=
  NoDup (map fst t) /\ Forall (fun kn => at_entries (snd kn) (fst kn) (kept (fst kn) es)) t /\ forall sk it, In (Some sk, it) es -> In (k_key sk) (map fst t).
Lemma filed_nil : filed [] [].
Proof. split; [constructor|]. split; [constructor|]. intros ? ? []. Qed.
Lemma filed_void es t i : filed es t -> filed (es ++ [(None, i)]) t.
Proof.
  intros (A & B & C). split; [exact A|]. split.
  - eapply Forall_impl; [|exact B]. intros [k n] H. cbn [fst snd] in *. rewrite kept_app. cbn [kept flat_map fst app]. rewrite app_nil_r. exact H.
  - intros sk it I. apply in_app_iff in I as [I|[I|[]]]; [eauto|discriminate].
Qed.
Lemma kept_other k es sk it : k_key sk <> k -> kept k (es ++ [(Some sk, it)]) = kept k es.
Proof. intros N. rewrite kept_app. cbn [kept flat_map fst snd app]. apply str_eqb_neq in N. rewrite N. apply app_nil_r. Qed.
Lemma kept_same es sk it : kept (k_key sk) (es ++ [(Some sk, it)]) = kept (k_key sk) es ++ [(sk, it)].
Proof. rewrite kept_app. cbn [kept flat_map fst snd app]. rewrite str_eqb_refl. reflexivity. Qed.
Lemma kept_none k es t : filed es t -> ~ In k (map fst t) -> kept k es = [].
Proof.
  intros (_ & _ & C) N. destruct (kept k es) as [|[sk it] r] eqn:E; [reflexivity|]. exfalso. apply N. assert (I : In (sk, it) (kept k es)) by (rewrite E; left; reflexivity). apply kept_in in I as [I <-]. eapply C, I.
Qed.
Lemma filed_new es t sk it n : filed es t -> ~ In (k_key sk) (map fst t) -> at_entries n (k_key sk) [(sk, it)] -> filed (es ++ [(Some sk, it)]) (t ++ [(k_key sk, n)]).
Proof.
  intros F N H. pose proof (kept_none _ _ _ F N) as K. destruct F as (A & B & C). split; [apply Trees.nodup_end; assumption|]. split.
  - apply Forall_app. split.
    + rewrite Forall_forall in B |- *. intros [k m] I. specialize (B _ I). cbn [fst snd] in *. rewrite kept_other; [exact B|]. intros E. apply N. rewrite E. apply in_map_iff. exists (k, m). auto.
    + constructor; [|constructor]. cbn [fst snd]. rewrite kept_same, K. exact H.
  - intros s i I. rewrite map_app. apply in_app_iff. apply in_app_iff in I as [I|[I|[]]]; [left; eauto|right; left; injection I as -> _; reflexivity].
Qed.
Lemma filed_value es t sk it v v' : filed es t -> ~ In (k_key sk) (map fst t) -> says it v' -> pyeq v' v -> filed (es ++ [(Some sk, it)]) (t ++ [(k_key sk, Value v)]).
Proof. intros F N S P. apply filed_new; [exact F|exact N|]. exists sk, it, v'. auto. Qed.
Lemma filed_dotted es t sk it ns v t' : filed es t -> ns <> [] -> dent (k_key sk :: ns) v sk it -> put (k_key sk :: ns) v t t' -> filed (es ++ [(Some sk, it)]) t'.
Proof.
  intros F Ne D P. inversion P as [k v0 l Nk|k r v0 l m Nk Hm|k r v0 a m m' b Hm]; subst; [congruence| |].
  - apply filed_new; [exact F|exact Nk|]. split; [discriminate|]. exists [(ns, v)]. split; [constructor; [split; assumption|constructor]|]. econstructor; [exact Hm|constructor].
  - destruct F as (A & B & C). rewrite map_app in A. cbn [map fst] in A. split; [rewrite map_app; exact A|]. apply Forall_app in B as [B1 B2]. inversion B2 as [|? ? B3 B4]; subst. cbn [fst snd] in B3. split.
    + pose proof (NoDup_remove_2 _ _ _ A) as N2. assert (O : forall l, (forall k, In k (map fst l) -> In k (map fst a ++ map fst b)) -> Forall (fun kn => at_entries (snd kn) (fst kn) (kept (fst kn) es)) l -> Forall (fun kn => at_entries (snd kn) (fst kn) (kept (fst kn) (es ++ [(Some sk, it)]))) l).
      { intros l Hl H. rewrite Forall_forall in H |- *. intros [k n] I. specialize (H _ I). cbn [fst snd] in *. rewrite kept_other; [exact H|]. intros E. apply N2. rewrite E. apply Hl. apply in_map_iff. exists (k, n). auto. }
      apply Forall_app. split; [apply O; [intros; apply in_app_iff; auto|exact B1]|]. constructor; [|apply O; [intros; apply in_app_iff; auto|exact B4]].
      cbn [fst snd]. rewrite kept_same. destruct B3 as (_ & ss & G & Ps). split; [destruct (kept (k_key sk) es); discriminate|]. exists (ss ++ [(ns, v)]). split; [apply Forall2_app; [exact G|]; constructor; [split; assumption|constructor]|]. eapply puts_snoc; eauto.
    + intros s i I. rewrite map_app. cbn [map fst]. apply in_app_iff in I as [I|[I|[]]]; [specialize (C _ _ I); rewrite map_app in C; exact C|]. injection I as -> _. apply in_app_iff. right. left. reflexivity.
Qed.

(** * Where they are *)
Definition at_key (k : str) (b : list bent) (i : nat) : bool := match nth_error b i with Some (Some sk, _) => str_eqb (k_key sk) k | _ => false end.
Definition places (k : str) (b : list bent) : list nat := filter (at_key k b) (seq 0 (List.length b)).
Lemma places_in k b i : In i (places k b) <-> exists sk it, nth_error b i = Some (Some sk, it) /\ k_key sk = k.
Proof.
  unfold places. rewrite filter_In, in_seq. unfold at_key. split.
  - intros [_ H]. destruct (nth_error b i) as [[[sk|] it]|]; try discriminate. exists sk, it. split; [reflexivity|]. apply str_eqb_eq, H.
  - intros (sk & it & E & K). rewrite E, K, str_eqb_refl. split; [|reflexivity]. assert (i < List.length b) by (apply nth_error_Some; congruence). lia.
Qed.
Lemma places_kept k b : Forall2 (fun i x => nth_error b i = Some (Some (fst x), snd x)) (places k b) (kept k b).
Proof.
  induction b as [|[o it] b IH] using rev_ind; [constructor|]. unfold places. rewrite app_length. cbn [List.length]. rewrite Nat.add_1_r, seq_S, filter_app, kept_app. apply Forall2_app.
  - assert (E : filter (at_key k (b ++ [(o, it)])) (seq 0 (List.length b)) = places k b).
    { unfold places. apply filter_ext_in. intros i I. apply in_seq in I. unfold at_key. rewrite nth_error_app1 by lia. reflexivity. }
    rewrite E. clear E. induction IH as [|i x l l' H _ IH2]; constructor; [|exact IH2]. rewrite nth_error_app1; [exact H|]. apply nth_error_Some. congruence.
  - cbn [filter plus]. unfold at_key. rewrite nth_error_app2, Nat.sub_diag by lia. cbn [nth_error kept flat_map fst snd app]. destruct o as [sk|]; [|constructor]. destruct (str_eqb (k_key sk) k); [|constructor].
    constructor; [|constructor]. rewrite nth_error_app2, Nat.sub_diag by lia. reflexivity.
Qed.
Lemma places_index c k ci : consistent c -> map_get k (c_map c) = Some ci -> Permutation (places k (c_body c)) (idxs ci).
Proof.
  intros (Mo & Co & _) M. destruct (Mo _ _ M) as (_ & Nd & K). apply NoDup_Permutation; [apply NoDup_filter, seq_NoDup|exact Nd|]. intros i. rewrite places_in. split.
  - intros (sk & it & E & Ek). destruct (Co _ _ _ E) as (ci' & M' & I). rewrite Ek, M in M'. injection M' as <-. exact I.
  - intros I. rewrite Forall_forall in K. destruct (K i I) as (sk & it & E & Ek & _). eauto.
Qed.
Lemma node_here c k n : consistent c -> at_entries n k (kept k (c_body c)) -> In k (c_dict c) ->
  exists h n', at_node h c k n' /\ pyeq (node_value n') (node_value n).
Proof.
  intros C A I. assert (exists ci, map_get k (c_map c) = Some ci) as (ci & M) by (apply (consistent_dict c k C) in I; destruct (map_get k (c_map c)); [eauto|congruence]).
  pose proof (places_index c k ci C M) as P. pose proof (places_kept k (c_body c)) as K. destruct n as [v|t].
  - destruct A as (sk & it & v' & E & S & Pe). rewrite E in K. inversion K as [|i ? li ? H1 H2 H3]; subst. inversion H2; subst. rewrite <- H3 in P. apply Permutation_length_1_inv in P.
    exists 0, (Value v'). split; [|exact Pe]. exists i, (Some sk), it. split; [|auto]. rewrite M. f_equal. destruct C as [Mo _]. destruct (Mo _ _ M) as (R & _). destruct ci as [j|l]; cbn [idxs] in P; [congruence|]. rewrite P in R. cbn in R. lia.
  - destruct A as (_ & ss & G & Ps). assert (G2 : Forall2 (fun i s => exists sk it, nth_error (c_body c) i = Some (Some sk, it) /\ dent (k :: fst s) (snd s) sk it /\ fst s <> []) (places k (c_body c)) ss).
    { clear -G K. revert ss G. induction K as [|i x l l' H _ IH]; intros ss G; inversion G as [|? s ? ss' [D N] G']; subst; constructor; [exists (fst x), (snd x); auto|apply IH, G']. }
    destruct (Permutation_Forall2 P G2) as (ss' & Pm & G3). destruct (puts_permuted ss ss' t Ps Pm) as (t' & Ps' & Pe).
    exists (list_max (map (fun s : stmt => List.length (fst s)) ss')), (Names t'). split; [|rewrite !node_names; exact Pe]. exists ci, ss'. split; [exact M|]. split; [exact G3|]. split; [|exact Ps'].
    pose proof (proj1 (list_max_le (map (fun s : stmt => List.length (fst s)) ss') _) (le_n _)) as L. rewrite Forall_map in L. exact L.
Qed.
Theorem filed_lines c t : consistent c -> filed (c_body c) t -> exists h t', Lines.lines h c t' /\ pyeq (PDict (dict_of t')) (PDict (dict_of t)).
Proof.
  intros C (Nd & F & Ca). pose proof C as (Mo & Co & Nm & Nc & Dc).
  assert (Kd : forall k, In k (c_dict c) <-> In k (map fst t)).
  { intros k. rewrite Dc. split.
    - intros H. destruct (map_get k (c_map c)) as [ci|] eqn:M; [|congruence]. destruct (Mo _ _ M) as (R & _ & K). apply roomy_ne in R. destruct (idxs ci) as [|i r] eqn:Ei; [congruence|]. destruct (Forall_inv K) as (sk & it & E & <- & _). eapply Ca. eapply nth_error_In, E.
    - intros H. apply in_map_iff in H as ([k0 n] & Ek & H). cbn [fst] in Ek. subst k0. rewrite Forall_forall in F. specialize (F _ H). cbn [fst snd] in F.
      assert (X : exists x, In x (kept k (c_body c))).
      { destruct n as [v|u]; [destruct F as (sk & it & v' & E & _); exists (sk, it); rewrite E; left; reflexivity|]. destruct F as (Nx & _). destruct (kept k (c_body c)) as [|x r]; [congruence|]. exists x. left. reflexivity. }
      destruct X as ([sk it] & X). apply kept_in in X as [X <-]. apply In_nth_error in X as (i & E). destruct (Co _ _ _ E) as (ci & M & _). congruence. }
  assert (T2 : forall l, (forall e, In e l -> In e t) -> exists h t2, Forall2 (fun a b => fst a = fst b /\ at_node h c (fst a) (snd a) /\ pyeq (node_value (snd a)) (node_value (snd b))) t2 l).
  { induction l as [|[k n] l IH]; intros Hl; [exists 0, []; constructor|]. destruct IH as (h & t2 & G); [intros; apply Hl; right; assumption|]. pose proof (Hl _ (or_introl eq_refl)) as I. rewrite Forall_forall in F. specialize (F _ I). cbn [fst snd] in F.
    destruct (node_here c k n C F) as (h' & n' & An & Pe); [apply Kd, in_map_iff; exists (k, n); auto|]. exists (h + h'), ((k, n') :: t2). constructor.
    - cbn [fst snd]. split; [reflexivity|]. split; [eapply at_node_up; [|exact An]; lia|exact Pe].
    - clear -G. induction G as [|a b l1 l2 (A & B & D) _ IH]; constructor; [|exact IH]. split; [exact A|]. split; [eapply at_node_up; [|exact B]; lia|exact D]. }
  destruct (T2 t ltac:(auto)) as (h & t2 & G). assert (Ef : map fst t2 = map fst t) by (clear -G; induction G as [|a b l1 l2 (A & _) _ IH]; [reflexivity|]; cbn [map]; congruence).
  assert (P : Permutation (c_dict c) (map fst t2)) by (rewrite Ef; apply NoDup_Permutation; assumption). destruct (Permutation_map_inv _ _ P) as (t1 & E & P1). exists h, t1. split.
  - split; [exact C|]. split; [exact E|]. apply (Permutation_Forall P1). clear -G. induction G as [|a b l1 l2 (_ & B & _) _ IH]; constructor; assumption.
  - apply (pe_dict _ (dict_of t2)); [unfold dict_of; apply Permutation_map, Permutation_sym, P1|]. clear -G. induction G as [|a b l1 l2 (A & _ & D) _ IH]; cbn [dict_of map]; constructor; [split; assumption|exact IH].
Qed.
Corollary filed_says c t : consistent c -> filed (c_body c) t -> exists r, both c r /\ pyeq (PDict r) (PDict (dict_of t)).
Proof. intros C F. destruct (filed_lines c t C F) as (h & t' & Hl & Pe). exists (dict_of t'). split; [|exact Pe]. split; [eapply lines_unwrap, Hl|eapply lines_unwrap, lines_parsing, Hl]. Qed.

(** * Values *)
Lemma unwrap_all l : forall vs, Forall2 (fun it v => exists v', unwrap it = Some v' /\ pyeq v' v) l vs -> exists vs', seqopt (map unwrap l) = Some vs' /\ Forall2 pyeq vs' vs.
Proof.
  intros vs H. induction H as [|it v l vs (v' & U & P) _ (vs' & E & F)]; [exists []; split; [reflexivity|constructor]|]. exists (v' :: vs'). cbn [map seqopt]. rewrite U, E. split; [reflexivity|constructor; assumption].
Qed.
Lemma snugs_unwrap : (forall it v, snug it v -> exists v', unwrap it = Some v' /\ pyeq v' v) /\
  (forall l vs, selems l vs -> Forall2 (fun it v => exists v', unwrap it = Some v' /\ pyeq v' v) l vs) /\
  (forall l b l2, sfields l b l2 -> forall es, filed es l -> filed (es ++ b) l2).
Proof.
  apply (snugs_mut (fun it v _ => exists v', unwrap it = Some v' /\ pyeq v' v) (fun l vs _ => Forall2 (fun it v => exists v', unwrap it = Some v' /\ pyeq v' v) l vs) (fun l b l2 _ => forall es, filed es l -> filed (es ++ b) l2)).
  - intros it v v' _ _ U P. eauto.
  - intros c t new l C _ _ _ IH. destruct (filed_says c l C (IH [] filed_nil)) as (r & [U _] & P). exists (PDict r). rewrite unwrap_inline, U. auto.
  - intros gs t vs R _ _ IH. rewrite unwrap_array, shown_reals by exact R. destruct (unwrap_all _ _ IH) as (vs' & -> & P). exists (PList vs'). split; [reflexivity|]. apply pe_list, P.
  - constructor.
  - intros i v l vs _ A _ B. constructor; assumption.
  - intros l es F. rewrite app_nil_r. exact F.
  - intros e b l l2 [N _] _ IH es F. destruct e as [o i]. cbn [fst] in N. subst o. rewrite (app_assoc es [_] b : es ++ (None, i) :: b = _). apply IH, filed_void, F.
  - intros sk it v b l l2 _ _ _ P _ _ _ (v' & U & Pe) Nk _ IH es F. rewrite (app_assoc es [_] b : es ++ (Some sk, it) :: b = _). apply IH. eapply filed_value; [exact F|exact Nk|apply plain_says; eassumption|exact Pe].
  - intros sk it k s w e ns v b l l1 l2 _ _ _ Ne _ _ _ _ D Pu _ IH es F. rewrite (app_assoc es [_] b : es ++ (Some sk, it) :: b = _). apply IH. eapply filed_dotted; eauto.
Qed.
Definition snug_unwrap := proj1 snugs_unwrap.

(** * Documents *)
Lemma nline_none e : nline e None -> exists i, e = (None, i).
Proof. inversion 1; eauto. Qed.
Lemma nlines_filed l b l2 : nlines l b l2 -> forall es, filed es l -> filed (es ++ b) l2.
Proof.
  induction 1 as [l|e b l l2 N _ IH|e ns v b l l1 l2 N P _ IH]; intros es F; [rewrite app_nil_r; exact F| |]; rewrite (app_assoc es [e] b : es ++ e :: b = _); apply IH.
  - apply nline_none in N as (i & ->). apply filed_void, F.
  - inversion N; subst.
    + inversion P as [? ? ? Nk|? ? ? ? ? ? Q|? ? ? ? ? ? ? Q]; subst; try (apply put_ne in Q; congruence). edestruct snug_unwrap as (v' & U & Pe); [eassumption|]. eapply filed_value; [exact F|exact Nk|apply plain_says; eassumption|exact Pe].
    + eapply filed_dotted; eauto.
Qed.
Definition leaves (l : list (str * pyv)) : tree := map (fun kv => (fst kv, Value (snd kv))) l.
Lemma leaves_fst l : map fst (leaves l) = map fst l. Proof. unfold leaves. rewrite map_map. reflexivity. Qed.
Lemma leaves_dict l : dict_of (leaves l) = l.
Proof. unfold leaves, dict_of. rewrite map_map. cbn. induction l as [|[k v] l IH]; [reflexivity|]. cbn. rewrite IH. reflexivity. Qed.
Lemma neats_unwrap :
  (forall tops path pfx b1 b2 d, nbody tops path pfx b1 b2 d -> Forall (fun kv => ok_item (snd kv)) (b1 ++ b2) -> exists t, filed (b1 ++ b2) t /\ dict_of t = d) /\
  (forall tops path pfx b l, ntables tops path pfx b l -> Forall (fun kv => ok_item (snd kv)) b -> forall es t, filed es t -> NoDup (map fst t ++ map fst l) -> filed (es ++ b) (t ++ leaves l)) /\
  (forall tops path pfx sk it v, ntable tops path pfx sk it v -> ok_item it -> exists v', says it v' /\ pyeq v' v) /\
  (forall tops path key L ds, nelems tops path key L ds -> Forall (fun x => ok_cont (fst x)) L -> exists ds', elems_say L ds' /\ Forall2 pyeq (map PDict ds') (map PDict ds)).
Proof.
  apply neat_mut.
  - intros tops path pfx b1 b2 ps l N _ IH Nd Ok. apply Forall_app in Ok as [_ Ok]. exists (ps ++ leaves l). split; [|unfold dict_of at 1; rewrite map_app; f_equal; apply leaves_dict].
    apply IH; [exact Ok|exact (nlines_filed _ _ _ N [] filed_nil)|]. rewrite map_app, dict_fst in Nd. exact Nd.
  - intros tops path pfx _ es t F _. cbn [leaves map]. rewrite !app_nil_r. exact F.
  - intros tops path pfx e b l (N & _) _ _ IH Ok es t F Nd. destruct e as [o i]. cbn [fst] in N. subst o. inversion Ok; subst. rewrite (app_assoc es [_] b : es ++ (None, i) :: b = _). apply IH; auto. apply filed_void, F.
  - intros tops path pfx sk it v b l _ IHt _ IH Ok es t F Nd. inversion Ok as [|? ? O1 O2]; subst. cbn [snd] in O1. destruct (IHt O1) as (v' & S & P). cbn [map fst] in Nd. rewrite (app_assoc es [_] b : es ++ (Some sk, it) :: b = _).
    change (leaves ((k_key sk, v) :: l)) with ([(k_key sk, Value v)] ++ leaves l). rewrite app_assoc. apply IH; [exact O2| |].
    + eapply filed_value; [exact F| |exact S|exact P]. intros I. apply NoDup_remove_2 in Nd. apply Nd, in_app_iff. auto.
    + rewrite map_app. cbn [map fst]. rewrite <- app_assoc. exact Nd.
  - intros tops path pfx sk c m b1 b2 d _ _ _ _ _ _ _ B _ IH Ok. inversion Ok as [? ? O| |? O]; subst; [|discriminate O]. destruct (ok_parts c O) as (C & _ & Fo). rewrite B in Fo. destruct (IH Fo) as (t & F & <-). rewrite <- B in F.
    destruct (filed_says c t C F) as (r & [U1 U2] & P). exists (PDict r). split; [|exact P]. split; [rewrite unwrap_table, U1; reflexivity|]. cbn [parsing_item]. rewrite unwrap_table, U2. reflexivity.
  - intros tops path pfx sk c m l _ _ _ _ _ _ _ _ _ IH _ Nd Ok. inversion Ok as [? ? O| |? O]; subst; [|discriminate O]. destruct (ok_parts c O) as (C & _ & Fo). pose proof (IH Fo [] [] filed_nil Nd) as F. cbn [app] in F.
    destruct (filed_says c _ C F) as (r & [U1 U2] & P). rewrite leaves_dict in P. exists (PDict r). split; [|exact P]. split; [rewrite unwrap_table, U1; reflexivity|]. cbn [parsing_item]. rewrite unwrap_table, U2. reflexivity.
  - intros tops path pfx sk L n p t ds _ _ _ _ IH Ok. inversion Ok as [|? ? ? ? O|? O]; subst; [|discriminate O]. destruct (IH O) as (ds' & Es & P). exists (PList (map PDict ds')). split; [apply elems_says, Es|apply pe_list, P].
  - intros tops path k _. exists []. split; constructor.
  - intros tops path k c m L b1 b2 d ds _ _ B _ IH _ IHe Ok. inversion Ok as [|? ? O Os]; subst. cbn [fst] in O. destruct (IHe Os) as (ds' & Es & P). destruct (ok_parts c O) as (C & _ & Fo). rewrite B in Fo. destruct (IH Fo) as (t & F & <-). rewrite <- B in F.
    destruct (filed_says c t C F) as (r & Bo & Pr). exists (r :: ds'). split; [constructor; assumption|]. cbn [map]. constructor; assumption.
Qed.
Theorem neat_unwrap c d : ok_cont c -> neat c d -> exists d2, unwrap_cont c = Some d2 /\ pyeq (PDict d2) (PDict d).
Proof.
  intros Ok (b1 & b2 & B & H). destruct (ok_parts c Ok) as (C & _ & Fo). rewrite B in Fo. destruct (proj1 neats_unwrap _ _ _ _ _ _ H Fo) as (t & F & <-). rewrite <- B in F. destruct (filed_says c t C F) as (r & [U _] & P). eauto.
Qed.
