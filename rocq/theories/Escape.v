(** Escape: characterisation of [escape_string] (C05-C08). *)
From Verif Require Import Base Source Utils Items Container Lemmas.
From Coq Require Import ZifyBool ZifyNat ZifyN Permutation.
Open Scope nat_scope.

(** What the escape sets look like: every sequence is a run of one character, and
    no two sequences start with the same character. *)
Definition run_of (q : str) : Prop := exists a k, q = repeat a (S k).
Definition heads_distinct (seqs : list str) : Prop :=
  forall q1 q2, In q1 seqs -> In q2 seqs -> hd 0%N q1 = hd 0%N q2 -> q1 = q2.
Definition wf_seqs (seqs : list str) : Prop :=
  NoDup seqs /\ Forall run_of seqs /\ heads_distinct seqs.

(** A direct left-to-right reading of the same process. *)
Fixpoint esc_ref (seqs : list str) (s : str) (skip : nat) : str :=
  match s with
  | [] => []
  | c :: s' =>
      match skip with
      | S k => esc_ref seqs s' k
      | O => match find (fun q => startswith q s) seqs with
             | Some q => esc_seq q ++ esc_ref seqs s' (List.length q - 1)
             | None => c :: esc_ref seqs s' 0
             end
      end
  end.

Lemma esc_ref_skip seqs k s : esc_ref seqs s k = esc_ref seqs (skipn k s) 0.
Proof.
  revert s; induction k as [|k IH]; intros s; [reflexivity|].
  destruct s as [|c s]; [reflexivity|]. simpl. apply IH.
Qed.

Lemma startswith_hd q s : run_of q -> startswith q s = true -> s <> [] /\ hd 0%N q = hd 0%N s.
Proof.
  intros [a [k ->]] H. destruct s as [|c s]; [discriminate|].
  simpl in H. apply andb_true_iff in H as [H _]. apply N.eqb_eq in H. split; [discriminate|]. exact H.
Qed.

Lemma skipn_run (a : char) k r j : j <= k -> skipn j (repeat a (S k) ++ r) = repeat a (S (k - j)) ++ r.
Proof.
  intros H. rewrite skipn_app, repeat_length.
  replace (j - S k) with 0 by lia. simpl skipn at 2.
  f_equal. replace (S k) with (j + S (k - j)) by lia. rewrite repeat_app.
  rewrite <- (repeat_length a j) at 1. apply skipn_length_app.
Qed.

Lemma fold_no_match s found st :
  (forall q, In q found -> startswith q (skipn (e_i st) s) = false) ->
  fold_left (esc_step s) found st = st.
Proof.
  induction found as [|q found IH]; intros H; [reflexivity|].
  simpl. unfold esc_step at 2. rewrite (H q (or_introl eq_refl)).
  apply IH. intros q' Hq. apply H. right. exact Hq.
Qed.

Lemma fold_match s found st q :
  wf_seqs found -> In q found -> startswith q (skipn (e_i st) s) = true ->
  fold_left (esc_step s) found st =
  mkEsc (e_i st + (List.length q - 1)) (e_i st + List.length q) (e_res st ++ flush_text s st ++ esc_seq q).
Proof.
  intros [Hnd [Hrun Hd]] Hin Hq.
  apply in_split in Hin as [l1 [l2 ->]].
  assert (Hqr : run_of q) by (rewrite Forall_forall in Hrun; apply Hrun; apply in_elt).
  assert (Hno : forall q', In q' (l1 ++ l2) -> hd 0%N q' <> hd 0%N q).
  { intros q' Hq' E. apply NoDup_remove_2 in Hnd. apply Hnd.
    rewrite <- (Hd q' q); auto; [apply in_or_app | apply in_elt].
    apply in_app_or in Hq' as [?|?]; [left|right; right]; auto. }
  assert (Hrun' : forall q', In q' (l1 ++ l2) -> run_of q').
  { intros q' Hq'. rewrite Forall_forall in Hrun. apply Hrun. apply in_or_app.
    apply in_app_or in Hq' as [?|?]; [left|right; right]; auto. }
  rewrite fold_left_app. rewrite (fold_no_match s l1).
  2:{ intros q' Hq'. destruct (startswith q' (skipn (e_i st) s)) eqn:E; [|reflexivity]. exfalso.
      assert (Hin' : In q' (l1 ++ l2)) by (apply in_or_app; left; exact Hq').
      apply (Hno q' Hin').
      apply startswith_hd in E as [_ E]; [|auto]. apply startswith_hd in Hq as [_ E2]; [|auto]. congruence. }
  cbn [fold_left]. unfold esc_step at 2. rewrite Hq.
  apply fold_no_match. cbn [e_i].
  intros q' Hq'. assert (Hin' : In q' (l1 ++ l2)) by (apply in_or_app; right; exact Hq').
  destruct (startswith q' (skipn _ s)) eqn:E; [|reflexivity]. exfalso.
  apply (Hno q' Hin'). apply startswith_hd in E as [_ E]; [|auto]. rewrite E.
  apply startswith_spec in Hq as [r Hr].
  rewrite <- skipn_skipn'. rewrite Hr. destruct Hqr as [a [k ->]].
  rewrite repeat_length. replace (S k - 1) with k by lia.
  rewrite skipn_run by lia. reflexivity.
Qed.

Lemma slice_snoc s a b c r : a <= b -> skipn b s = c :: r -> slice a (S b) s = slice a b s ++ [c].
Proof.
  intros Hab H. unfold slice.
  replace (S b - a) with ((b - a) + 1) by lia.
  assert (E : skipn (b - a) (skipn a s) = c :: r).
  { rewrite skipn_skipn'. replace (a + (b - a)) with b by lia. exact H. }
  revert E. generalize (skipn a s) (b - a). intros l n. revert l.
  induction n as [|n IH]; intros l E.
  - simpl in *. subst l. reflexivity.
  - destruct l as [|x l]; [discriminate|]. simpl in E. simpl. f_equal. apply IH. exact E.
Qed.

Lemma find_unique (f : str -> bool) l q :
  In q l -> f q = true -> (forall q', In q' l -> f q' = true -> q' = q) -> find f l = Some q.
Proof.
  intros Hin Hf Hu. destruct (find f l) eqn:E.
  - apply find_some in E as [H1 H2]. f_equal. apply Hu; auto.
  - eapply find_none in E; [|exact Hin]. congruence.
Qed.

Lemma wf_match_unique seqs s q q' :
  wf_seqs seqs -> In q seqs -> In q' seqs -> startswith q s = true -> startswith q' s = true -> q' = q.
Proof.
  intros [_ [Hr Hd]] H1 H2 E1 E2. rewrite Forall_forall in Hr.
  apply Hd; auto. apply startswith_hd in E1 as [_ ->]; [|auto]. apply startswith_hd in E2 as [_ ->]; auto.
Qed.

Lemma wf_filter f seqs : wf_seqs seqs -> wf_seqs (filter f seqs).
Proof.
  intros [H1 [H2 H3]]. split; [|split].
  - apply NoDup_filter; exact H1.
  - rewrite Forall_forall in *. intros q Hq. apply filter_In in Hq as [Hq _]. auto.
  - intros q1 q2 A B. apply filter_In in A as [A _]. apply filter_In in B as [B _]. auto.
Qed.

Lemma wf_perm a b : Permutation a b -> wf_seqs a -> wf_seqs b.
Proof.
  intros P [H1 [H2 H3]]. split; [|split].
  - eapply Permutation_NoDup; eauto.
  - rewrite Forall_forall in *. intros q Hq. apply H2. eapply Permutation_in; [symmetry|]; eauto.
  - intros q1 q2 A B. apply H3; eapply Permutation_in; try (symmetry; eassumption); eauto.
Qed.

Lemma esc_while_ref seqs found s :
  wf_seqs seqs -> found = filter (fun q => substr q s) seqs ->
  forall fuel st,
  e_start st <= e_i st -> List.length s <= e_i st + fuel -> e_i st <= List.length s ->
  let st' := esc_while fuel found s st in
  e_res st' ++ flush_text s st' = e_res st ++ slice (e_start st) (e_i st) s ++ esc_ref seqs (skipn (e_i st) s) 0.
Proof.
  intros Hwf Hfound. assert (Hwf' : wf_seqs found) by (subst; apply wf_filter; exact Hwf).
  assert (Hflush : forall st, flush_text s st = slice (e_start st) (e_i st) s).
  { intros st. unfold flush_text. destruct (Nat.eqb_spec (e_start st) (e_i st)) as [->|]; [|reflexivity].
    unfold slice. rewrite Nat.sub_diag. reflexivity. }
  induction fuel as [|fuel IH]; intros st Hs Hf Hle; cbn [esc_while].
  - cbv zeta. rewrite Hflush. rewrite skipn_all2 by lia. simpl. rewrite app_nil_r. reflexivity.
  - destruct (Nat.ltb_spec (e_i st) (List.length s)) as [Hlt|Hge].
    2:{ cbv zeta. rewrite Hflush. rewrite skipn_all2 by lia. simpl. rewrite app_nil_r. reflexivity. }
    destruct (skipn (e_i st) s) as [|c r] eqn:Esk.
    { exfalso. assert (List.length (skipn (e_i st) s) = 0) by (rewrite Esk; reflexivity).
      rewrite skipn_length in H. lia. }
    destruct (find (fun q => startswith q (c :: r)) found) as [q|] eqn:Efind.
    + pose proof (find_some _ _ Efind) as [Hin Hsw]. cbv beta in Hsw.
      rewrite (fold_match s found st q) by (auto; rewrite Esk; exact Hsw).
      cbn [e_i e_start e_res].
      assert (Hq : run_of q) by (destruct Hwf' as [_ [Hr _]]; rewrite Forall_forall in Hr; auto).
      assert (Hlen : 1 <= List.length q) by (destruct Hq as [a [k ->]]; rewrite repeat_length; lia).
      pose proof Hsw as Hsw'. apply startswith_spec in Hsw' as [r' Hr'].
      assert (Hlenq : e_i st + List.length q <= List.length s).
      { assert (List.length (skipn (e_i st) s) = List.length (q ++ r')) by (rewrite Esk, Hr'; reflexivity).
        rewrite skipn_length, app_length in H. lia. }
      pose proof (IH (mkEsc (S (e_i st + (List.length q - 1))) (e_i st + List.length q)
                       (e_res st ++ flush_text s st ++ esc_seq q))) as IH'.
      cbn [e_i e_start e_res] in IH'. rewrite IH' by lia. clear IH'.
      rewrite Hflush. rewrite <- !app_assoc. f_equal. f_equal.
      replace (S (e_i st + (List.length q - 1))) with (e_i st + List.length q) by lia.
      unfold slice. rewrite Nat.sub_diag. simpl firstn. simpl app.
      assert (Ef : find (fun q0 => startswith q0 (c :: r)) seqs = Some q).
      { apply find_unique; [subst found; apply filter_In in Hin as [Hin _]; exact Hin|exact Hsw|].
        intros q' H1 H2. eapply wf_match_unique; [exact Hwf| |exact H1|exact Hsw|exact H2].
        subst found; apply filter_In in Hin as [Hin _]; exact Hin. }
      cbn [esc_ref]. rewrite Ef. f_equal. symmetry. rewrite esc_ref_skip. f_equal.
      rewrite <- skipn_skipn', Esk. destruct (List.length q); [lia|]. simpl. rewrite Nat.sub_0_r. reflexivity.
    + rewrite fold_no_match by (intros q Hq; rewrite Esk; eapply (find_none _ _ Efind); exact Hq).
      pose proof (IH (mkEsc (S (e_i st)) (e_start st) (e_res st))) as IH'.
      cbn [e_i e_start e_res] in IH'. rewrite IH' by lia. clear IH'.
      f_equal. rewrite (slice_snoc s _ _ c r) by auto. rewrite <- app_assoc. f_equal. simpl app.
      cbn [esc_ref].
      assert (Ef : find (fun q0 => startswith q0 (c :: r)) seqs = None).
      { destruct (find _ seqs) eqn:E; [|reflexivity]. exfalso.
        apply find_some in E as [H1 H2].
        eapply find_none in Efind; [cbv beta in Efind; rewrite H2 in Efind; discriminate|].
        subst found. apply filter_In. split; [exact H1|].
        apply startswith_spec in H2 as [x Hx]. apply substr_spec. exists (firstn (e_i st) s), x.
        rewrite <- Hx, <- Esk. symmetry. apply firstn_skipn. }
      rewrite Ef. f_equal. f_equal.
      change (skipn (S (e_i st)) s = r).
      replace (S (e_i st)) with (e_i st + 1) by lia. rewrite <- skipn_skipn', Esk. reflexivity.
Qed.

Theorem escape_string_ref seqs s : wf_seqs seqs -> escape_string seqs s = esc_ref seqs s 0.
Proof.
  intros Hwf. unfold escape_string.
  pose proof (esc_while_ref seqs _ s Hwf eq_refl (List.length s) (mkEsc 0 0 [])) as H.
  cbn [e_i e_start e_res] in H. cbv zeta in H. rewrite H by lia. reflexivity.
Qed.

Lemma esc_ref_perm a b s k : wf_seqs a -> Permutation a b -> esc_ref a s k = esc_ref b s k.
Proof.
  intros Hwf P. revert k; induction s as [|c s IH]; intros k; [reflexivity|].
  cbn [esc_ref]. destruct k as [|k]; [|apply IH].
  assert (E : find (fun q => startswith q (c :: s)) a = find (fun q => startswith q (c :: s)) b).
  { destruct (find _ a) as [q|] eqn:Ea.
    - apply find_some in Ea as [H1 H2]. symmetry. apply find_unique; [eapply Permutation_in; eauto|exact H2|].
      intros q' H3 H4. eapply wf_match_unique; [exact Hwf|exact H1| |exact H2|exact H4].
      eapply Permutation_in; [symmetry; exact P|exact H3].
    - destruct (find _ b) as [q|] eqn:Eb; [|reflexivity]. exfalso.
      apply find_some in Eb as [H1 H2]. eapply find_none in Ea; [|eapply Permutation_in; [symmetry; exact P|exact H1]].
      cbv beta in Ea. congruence. }
  rewrite E. destruct (find _ b); rewrite ?IH; reflexivity.
Qed.

Theorem escape_string_perm a b s : wf_seqs a -> Permutation a b -> escape_string a s = escape_string b s.
Proof.
  intros Hwf P. rewrite !escape_string_ref; auto; [apply esc_ref_perm; auto | eapply wf_perm; eauto].
Qed.

(** The sets used by tomlkit are of this form. *)
Definition run_ofb (q : str) : bool :=
  match q with [] => false | a :: r => forallb (N.eqb a) r end.
Lemma run_ofb_ok q : run_ofb q = true -> run_of q.
Proof.
  destruct q as [|a r]; [discriminate|]. simpl. intros H. exists a, (List.length r). simpl. f_equal.
  induction r as [|b r IH]; [reflexivity|]. simpl in *. apply andb_true_iff in H as [H1 H2].
  apply N.eqb_eq in H1. subst b. f_equal. auto.
Qed.
Fixpoint nodup_heads (l : list str) : bool :=
  match l with
  | [] => true
  | q :: l' => negb (existsb (fun q' => N.eqb (hd 0%N q) (hd 0%N q')) l') && nodup_heads l'
  end.
Lemma wf_seqs_b l : forallb run_ofb l = true -> nodup_heads l = true -> wf_seqs l.
Proof.
  intros H1 H2.
  assert (Hr : Forall run_of l).
  { apply Forall_forall. intros q Hq. apply run_ofb_ok. rewrite forallb_forall in H1. auto. }
  clear H1.
  assert (G : NoDup l /\ heads_distinct l).
  { clear Hr. induction l as [|q l IH].
    - split; [constructor|]. intros q1 q2 [].
    - simpl in H2. apply andb_true_iff in H2 as [H2 H3]. apply negb_true_iff in H2.
      destruct (IH H3) as [I1 I2].
      assert (N1 : forall q', In q' l -> hd 0%N q <> hd 0%N q').
      { intros q' Hq' E. assert (existsb (fun q' => N.eqb (hd 0%N q) (hd 0%N q')) l = true).
        { apply existsb_exists. exists q'. rewrite E, N.eqb_refl. auto. }
        congruence. }
      split.
      + constructor; [|exact I1]. intros Hin. apply (N1 q Hin). reflexivity.
      + intros q1 q2 [->|A] [->|B] E; auto.
        * exfalso. apply (N1 q2 B E).
        * exfalso. apply (N1 q1 A). congruence. }
  destruct G. split; auto.
Qed.
Lemma wf_escaped t : wf_seqs (escaped_sequences t).
Proof. destruct t; apply wf_seqs_b; vm_compute; reflexivity. Qed.
Lemma wf_basic : wf_seqs basic_escapes.
Proof. apply wf_seqs_b; vm_compute; reflexivity. Qed.
