(** Regular: the entries of documents of the TOML grammar, read and edited, are regular (C20). *)
From Verif Require Import Base Source Utils Items Container Arrays Parser Api Lemmas Reader Consist OMap ContOps Wf ContText Text Render TextValue Unwrap ItemConv Grammar Meaning Denote Lines Document Edit Changes Possible MadeNeat Neat EditNeat EditOps EditAll SurgeryFacts.
Open Scope nat_scope.

Lemma void_regular e : fst e = None -> is_void (snd e) -> entry_regular e.
Proof. destruct e as [o i]. cbn [fst snd]. intros -> H. destruct i; try destruct H; cbn; eauto. Qed.
Lemma nline_regular e o : nline e o -> entry_regular e.
Proof.
  intros H. destruct H as [i Hi _ _|sk it v P|sk c m ns v a k s w t Kd Tr Ti0 Su0 Ne Et Ep Ha Hk Hs D Ht Dn].
  - apply void_regular; [reflexivity|exact Hi].
  - left. exact P.
  - right. split; [reflexivity|]. intros _. exists c, m. split; [reflexivity|]. inversion Dn as [? ? ? P|]; subst; [destruct P|assumption].
Qed.
Lemma nlines_regular l es l2 : nlines l es l2 -> Forall entry_regular es.
Proof. induction 1; constructor; eauto using nline_regular. Qed.
Lemma ntable_regular tops path pfx sk it v : ntable tops path pfx sk it v -> entry_regular (Some sk, it).
Proof. intros H. right. split; [destruct H; reflexivity|]. intros K. destruct H; congruence. Qed.
Lemma ntables_regular tops path pfx es l : ntables tops path pfx es l -> Forall entry_regular es.
Proof. induction 1 as [|? ? ? e es l [V1 [V2 _]] _ _ IH|? ? ? sk it v es l T _ IH]; constructor; eauto using void_regular, ntable_regular. Qed.
Lemma nbody_regular tops path pfx b1 b2 d : nbody tops path pfx b1 b2 d -> Forall entry_regular (b1 ++ b2).
Proof. intros [? ? ? ? ? ps l H1 H2 _]. apply Forall_app. split; [eapply nlines_regular, H1|eapply ntables_regular, H2]. Qed.
(** Every line is closed. *)
Lemma added_nothing b : Forall entry_regular b -> Forall (fun e => is_table_or_aot (snd e) = true \/ is_wsitem (snd e) = true \/ is_null (snd e) = true \/ inb chLF (tr_trail (item_trivia (snd e))) = true) b -> added_nl b = [].
Proof.
  intros _ F. unfold added_nl. destruct (rev b) as [|[k v] r] eqn:E; [reflexivity|]. assert (I : In (k, v) b) by (apply in_rev; rewrite E; left; reflexivity). rewrite Forall_forall in F. specialize (F _ I). cbn [snd] in F.
  destruct F as [->|[->|[->| ->]]]; rewrite ?orb_true_r; reflexivity.
Qed.
Definition closed_entry (e : option skey * item) : Prop := is_table_or_aot (snd e) = true \/ is_wsitem (snd e) = true \/ is_null (snd e) = true \/ inb chLF (tr_trail (item_trivia (snd e))) = true.
Lemma void_closed e : is_void (snd e) -> line_closed (snd e) -> closed_entry e.
Proof. destruct e as [o i]. cbn [snd]. intros H C. unfold closed_entry. cbn [snd]. destruct i; try destruct H; cbn; auto. Qed.
Lemma nline_closed e o : nline e o -> closed_entry e.
Proof.
  intros H. destruct H as [i Hi _ C|sk it v P _ _ _ _ (_ & _ & T) _|sk c m ns v a k s w t Kd Tr].
  - apply void_closed; assumption.
  - right. right. right. apply eol_inb, T.
  - left. reflexivity.
Qed.
Lemma nlines_closed l es l2 : nlines l es l2 -> Forall closed_entry es.
Proof. induction 1; constructor; eauto using nline_closed. Qed.
Lemma ntables_closed tops path pfx es l : ntables tops path pfx es l -> Forall closed_entry es.
Proof. induction 1 as [|? ? ? e es l (V1 & V2 & V3) _ _ IH|? ? ? sk it v es l T _ IH]; constructor; auto using void_closed. left. destruct T; reflexivity. Qed.
Lemma nbody_closed tops path pfx b1 b2 d : nbody tops path pfx b1 b2 d -> Forall closed_entry (b1 ++ b2).
Proof. intros [? ? ? ? ? ps l H1 H2 _]. apply Forall_app. split; [eapply nlines_closed, H1|eapply ntables_closed, H2]. Qed.
(** A new line in a table of such a document. *)
Lemma added_line c d p m t k v : ok_cont c -> neat c d -> table_at None c p = Some (m, t) -> ContOps.plain v -> map_get k (c_map t) = None ->
  exists t' b1 b2, cstep t (CAdd k v) = Ok t' /\ c_body t = b1 ++ b2 /\ Forall above b1 /\ tables_part b2 /\ cont_string t = btext None false b1 ++ btext None false b2 /\
    cont_string t' = btext None false b1 ++ ContText.line (k_orig (skey_of_str k)) (skey_of_str k) v ++ btext None false b2.
Proof.
  intros O (a1 & a2 & B & H) Ta P M. destruct (table_at_neat p None c _ _ _ _ _ _ m t O B H Ta) as (tops & path & pfx & c1 & c2 & d' & Ot & Bt & Ht).
  destruct (ok_parts t Ot) as (C & Pr & _). destruct (add_view t k v C P M) as (t' & E & _). pose proof (nbody_regular _ _ _ _ _ _ Ht) as R. rewrite <- Bt in R.
  destruct (added_text t k v t' C Pr P R M E) as (b1 & b2 & A1 & A2 & A3 & A4). exists t', b1, b2. split; [exact E|]. split; [exact A1|]. split; [exact A2|]. split; [exact A3|].
  rewrite !cont_string_eq. split; [rewrite A1, btext_app; reflexivity|]. rewrite (A4 None false). rewrite added_nothing; [reflexivity| |].
  - rewrite A1 in R. apply Forall_app in R. apply R.
  - pose proof (nbody_closed _ _ _ _ _ _ Ht) as K. rewrite <- Bt, A1 in K. apply Forall_app in K. apply K.
Qed.
