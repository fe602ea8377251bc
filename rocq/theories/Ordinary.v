(** Ordinary: texts of an ordinary shape (specification for C01), and a test for it. *)
From Verif Require Import Base Source Parser Lemmas Errors.
Open Scope nat_scope.

(** [no_indented_bracket] and [no_double_bracket] (Errors.v): a line beginning with a bracket has no
    space before it and no second bracket after it. *)
(** Header names are bare, without blanks. *)
Definition bare_headers (s : str) : Prop := forall a w h b, s = a ++ w ++ chLBR :: h ++ chRBR :: b -> line_start a -> blank w -> ~ In chRBR h ->
  Forall (fun c => is_bare_key_char c = true \/ c = chDOT) h.
(** Every carriage return belongs to a line end. *)
Definition no_lone_cr (s : str) : Prop := forall a b, s = a ++ chCR :: b -> exists b', b = chLF :: b'.
(** No date is followed by a space. *)
Definition no_date_space (s : str) : Prop := forall a d1 d2 b, s = a ++ [chMINUS; d1; d2; chSP] ++ b -> ~ (is_ascii_digit d1 = true /\ is_ascii_digit d2 = true).
(** Inline tables directly follow an equals sign. *)
Definition braces_after_eq (s : str) : Prop := forall a b, s = a ++ chLCB :: b -> exists a' w, a = a' ++ chEQ :: w /\ Forall (fun c => is_spaces c = true) w.
(** No blank stands before a comma. *)
Definition no_blank_comma (s : str) : Prop := forall a c b, s = a ++ [c; chCOMMA] ++ b -> is_spaces c = false.
Record ordinary (s : str) : Prop := {
  or_indent : no_indented_bracket s;
  or_aot : no_double_bracket s;
  or_bare : bare_headers s;
  or_cr : no_lone_cr s;
  or_date : no_date_space s;
  or_brace : braces_after_eq s;
  or_comma : no_blank_comma s }.

(** * A test *)
Definition all_splits (s : str) (P : str -> str -> bool) : bool := forallb (fun n => P (firstn n s) (skipn n s)) (seq 0 (S (List.length s))).
Lemma all_splits_ok s P : all_splits s P = true -> forall a b, s = a ++ b -> P a b = true.
Proof.
  unfold all_splits. intros H a b ->. rewrite forallb_forall in H. specialize (H (List.length a)). rewrite firstn_app, Nat.sub_diag, firstn_all, skipn_app, Nat.sub_diag, skipn_all in H. cbn [firstn skipn app] in H.
  rewrite app_nil_r in H. apply H. apply in_seq. rewrite app_length. lia.
Qed.
Definition line_startb (a : str) : bool := match rev a with [] => true | c :: _ => is_nl c end.
Lemma line_startb_ok a : line_start a -> line_startb a = true.
Proof. intros [->|(b & c & -> & H)]; [reflexivity|]. unfold line_startb. rewrite rev_app_distr. exact H. Qed.
Definition blankb (w : str) : bool := forallb is_blank w.
Lemma blankb_ok w : blank w -> blankb w = true.
Proof. intros H. apply forallb_forall. intros x Hx. unfold blank in H. rewrite Forall_forall in H. auto. Qed.
Definition headc (r : str) (c : char) : bool := match r with d :: _ => (d =? c)%N | [] => false end.
Definition eq_before (a : str) : bool := headc (drop_while is_spaces (rev a)) chEQ.
Lemma eq_before_ok a : eq_before a = true -> exists a' w, a = a' ++ chEQ :: w /\ Forall (fun c => is_spaces c = true) w.
Proof.
  unfold eq_before. intros H. pose proof (take_drop is_spaces (rev a)) as T. pose proof (take_while_all is_spaces (rev a)) as F. destruct (drop_while is_spaces (rev a)) as [|d r]; [discriminate|]. cbn in H. apply N.eqb_eq in H. subst d.
  exists (rev r), (rev (take_while is_spaces (rev a))). split; [|apply Forall_rev; exact F]. rewrite <- (rev_involutive a), <- T at 1. rewrite rev_app_distr. cbn [rev]. rewrite <- app_assoc. reflexivity.
Qed.
Definition charsb (s : str) : bool :=
  all_splits s (fun a r =>
      (negb (headc r chCR) || headc (tl r) chLF)
      && match r with m :: d1 :: d2 :: sp :: _ => negb ((m =? chMINUS)%N && is_ascii_digit d1 && is_ascii_digit d2 && (sp =? chSP)%N) | _ => true end
      && (negb (headc r chLCB) || eq_before a)
      && match r with c :: d :: _ => negb (is_spaces c && (d =? chCOMMA)%N) | _ => true end).
Definition ordinaryb (s : str) : bool :=
  all_splits s (fun a r => if line_startb a then all_splits r (fun w r =>
      if blankb w && headc r chLBR then
        negb (inb chSP w) && negb (headc (tl r) chLBR)
        && all_splits (tl r) (fun h b => negb (headc b chRBR) || inb chRBR h || forallb (fun c => is_bare_key_char c || (c =? chDOT)%N) h)
      else true) else true)
  && charsb s.
Lemma charsb_ok s : charsb s = true -> no_lone_cr s /\ no_date_space s /\ braces_after_eq s /\ no_blank_comma s.
Proof.
  unfold charsb. intros H2.
  assert (K2 : forall a r, s = a ++ r -> (headc r chCR = true -> headc (tl r) chLF = true)
     /\ match r with m :: d1 :: d2 :: sp :: _ => negb ((m =? chMINUS)%N && is_ascii_digit d1 && is_ascii_digit d2 && (sp =? chSP)%N) | _ => true end = true
     /\ (headc r chLCB = true -> eq_before a = true) /\ match r with c :: d :: _ => negb (is_spaces c && (d =? chCOMMA)%N) | _ => true end = true).
  { intros a r E. pose proof (all_splits_ok _ _ H2 a r E) as X. cbv beta in X. apply andb_true_iff in X as [X X4]. apply andb_true_iff in X as [X X3]. apply andb_true_iff in X as [X1 X2].
    split; [|split; [exact X2|split; [|exact X4]]]; intros Y; [rewrite Y in X1; exact X1|rewrite Y in X3; exact X3]. }
  split; [|split; [|split]].
  - intros a b E. destruct (K2 _ _ E) as (X & _). cbn [headc tl] in X. specialize (X eq_refl). destruct b as [|d b]; [discriminate|]. cbn in X. apply N.eqb_eq in X. subst. eauto.
  - intros a d1 d2 b E [D1 D2]. destruct (K2 _ _ E) as (_ & X & _). cbn [app] in X. rewrite D1, D2 in X. discriminate X.
  - intros a b E. destruct (K2 _ _ E) as (_ & _ & X & _). apply eq_before_ok, X. reflexivity.
  - intros a c b E. destruct (K2 _ _ E) as (_ & _ & _ & X). cbn [app] in X. destruct (is_spaces c); [discriminate X|reflexivity].
Qed.
Lemma ordinaryb_ok s : ordinaryb s = true -> ordinary s.
Proof.
  unfold ordinaryb. intros H. apply andb_true_iff in H as [H1 H2].
  assert (K1 : forall a w r, s = a ++ w ++ chLBR :: r -> line_start a -> blank w -> inb chSP w = false /\ headc r chLBR = false
     /\ all_splits r (fun h b => negb (headc b chRBR) || inb chRBR h || forallb (fun c => is_bare_key_char c || (c =? chDOT)%N) h) = true).
  { intros a w r E Ha Hw. pose proof (all_splits_ok _ _ H1 a (w ++ chLBR :: r) E) as X. cbv beta in X. rewrite (line_startb_ok a Ha) in X.
    pose proof (all_splits_ok _ _ X w (chLBR :: r) eq_refl) as Y. cbv beta in Y. rewrite (blankb_ok w Hw) in Y. cbn [andb headc tl] in Y. change (chLBR =? chLBR)%N with true in Y. cbv iota in Y.
    apply andb_true_iff in Y as [Y Y3]. apply andb_true_iff in Y as [Y1 Y2]. apply negb_true_iff in Y1, Y2. auto. }
  apply charsb_ok in H2 as (C1 & C2 & C3 & C4).
  constructor.
  - intros a w b E Ha Hw Hin. destruct (K1 a w b E Ha Hw) as [X _]. apply inb_In in Hin. congruence.
  - intros a w b E Ha Hw. destruct (K1 a w (chLBR :: b) E Ha Hw) as (_ & X & _). discriminate X.
  - intros a w h b E Ha Hw Hn. destruct (K1 a w _ E Ha Hw) as (_ & _ & X). pose proof (all_splits_ok _ _ X h (chRBR :: b) eq_refl) as Y. cbv beta in Y. cbn [headc] in Y. change (chRBR =? chRBR)%N with true in Y. cbn [negb orb] in Y.
    assert (Z : inb chRBR h = false). { destruct (inb chRBR h) eqn:Z; [|reflexivity]. apply inb_In in Z. contradiction. } rewrite Z in Y. cbn [orb] in Y.
    rewrite forallb_forall in Y. apply Forall_forall. intros c Hc. specialize (Y c Hc). apply orb_true_iff in Y as [Y|Y]; [left; exact Y|right; apply N.eqb_eq; exact Y].
  - exact C1.
  - exact C2.
  - exact C3.
  - exact C4.
Qed.
