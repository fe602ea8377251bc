(** GramBal: in a text without quotes and comments the brackets of TOML come in
    pairs; so the two lax places of Grammar.v are really not TOML (C37). *)
From Verif Require Import Base Lemmas Grammar.
From Coq Require Import ZifyBool ZifyNat ZifyN.
Open Scope nat_scope.
Definition cnt (c : char) (w : str) : nat := count_occ N.eq_dec w c.
(** As many [o] as [c]. *)
Definition even_brackets (o c : char) (w : str) : Prop := cnt o w = cnt c w.
Definition unquoted (w : str) : Prop := ~ In 34%N w /\ ~ In 39%N w /\ ~ In 35%N w.
Definition pair_of (o c : char) : Prop := (o = 123 /\ c = 125)%N \/ (o = 91 /\ c = 93)%N.
Lemma cnt_app c a b : cnt c (a ++ b) = cnt c a + cnt c b. Proof. apply count_occ_app. Qed.
Lemma even_app o c a b : even_brackets o c a -> even_brackets o c b -> even_brackets o c (a ++ b).
Proof. unfold even_brackets. rewrite !cnt_app. lia. Qed.
Lemma unq_app a b : unquoted (a ++ b) -> unquoted a /\ unquoted b.
Proof. unfold unquoted. rewrite !in_app_iff. tauto. Qed.
Section Pair.
Context (o c : char) (Hp : pair_of o c).
Notation even := (even_brackets o c).
Lemma even_all (P : char -> Prop) w : Forall P w -> (forall x, P x -> x <> 123 /\ x <> 125 /\ x <> 91 /\ x <> 93)%N -> even w.
Proof.
  intros H HP. unfold even_brackets, cnt. rewrite !(proj1 (count_occ_not_In _ _ _)); [reflexivity| |]; intros K; rewrite Forall_forall in H; apply H, HP in K; destruct Hp as [[-> ->]|[-> ->]]; tauto.
Qed.
Lemma even_nil : even []. Proof. reflexivity. Qed.
Lemma even_one x : (x <> 123 /\ x <> 125 /\ x <> 91 /\ x <> 93)%N -> even [x].
Proof. intros H. apply (even_all (fun y => y = x)); [repeat constructor|]. intros y ->. exact H. Qed.
Ltac chars := unfold space_c, blank_c, newline_c, bare_c, clock_c, digit_c, delim_c, punct_c, control_c in *; try lia.
Lemma even_blanks w : blanks w -> even w. Proof. intros H. apply (even_all _ _ H). chars. Qed.
Lemma even_margin w : margin w -> even w. Proof. intros H. apply (even_all _ _ H). chars. Qed.
Lemma even_spaces w : Forall space_c w -> even w. Proof. intros H. apply (even_all _ _ H). chars. Qed.
Lemma even_isspace w : Forall (fun c => py_isspace c = true) w -> even w. Proof. intros H. apply (even_all _ _ H). unfold py_isspace. intros. lia. Qed.
Lemma no_comment w : comment w -> ~ unquoted w.
Proof. intros (t & -> & _) (_ & _ & H). apply H. left. reflexivity. Qed.
Lemma no_string b m w : string_text b m w -> ~ unquoted w.
Proof.
  intros (x & _ & E) (H1 & H2 & _). subst w. destruct m, b; cbn [quote_of] in *; [apply H1|apply H2|apply H1|apply H2]; left; reflexivity.
Qed.
Lemma even_key w : key_text w -> unquoted w -> even w.
Proof.
  assert (S1 : forall w, simple_key w -> unquoted w -> even w).
  { intros x [a h k z A H K Z|a b k z A K Z] U.
    - apply even_app; [apply even_blanks, A|]. apply even_app; [|apply even_blanks, Z]. change (h :: k) with ([h] ++ k). apply even_app; [apply even_one; revert H; chars|]. apply (even_all _ _ K). chars.
    - apply unq_app in U as [_ U]. apply unq_app in U as [U _]. apply no_string in K. contradiction. }
  induction 1 as [w H|w r H _ IH]; intros U; [apply S1; assumption|]. apply unq_app in U as [U1 U]. apply unq_app in U as [_ U]. apply even_app; [apply S1; assumption|]. apply even_app; [apply even_one; lia|apply IH, U].
Qed.
Lemma even_sep w : sep_text w -> even w.
Proof. intros (a & b & -> & A & B). apply even_app; [apply even_blanks, A|]. apply even_app; [apply even_one; lia|apply even_blanks, B]. Qed.
Lemma even_gap w : gap w -> unquoted w -> even w.
Proof. induction 1 as [w H|w k x r H K X _ _]; intros U; [apply even_spaces, H|]. apply unq_app in U as [_ U]. apply unq_app in U as [U _]. apply no_comment in K. contradiction. Qed.
Lemma even_date d : date_text d -> even d.
Proof.
  intros (y & m & e & -> & _ & _ & _ & H). apply Forall_app in H as [Y H]. apply Forall_app in H as [M E].
  assert (D : forall x, Forall digit_c x -> even x) by (intros x X; apply (even_all _ _ X); chars).
  apply even_app; [apply D, Y|]. apply even_app; [apply even_one; lia|]. apply even_app; [apply D, M|]. apply even_app; [apply even_one; lia|apply D, E].
Qed.
Lemma even_wrap w : even w -> even ([91]%N ++ w ++ [93]%N) /\ even ([123]%N ++ w ++ [125]%N).
Proof. unfold even_brackets. rewrite !cnt_app. intros H. unfold cnt in *. destruct Hp as [[-> ->]|[-> ->]]; cbn; split; lia. Qed.
Lemma values_even : (forall w, value_text false w -> unquoted w -> even w) /\ (forall b w, elems false b w -> unquoted w -> even w) /\ (forall w, pairs false w -> unquoted w -> even w).
Proof.
  apply (values_mut false (fun w _ => unquoted w -> even w) (fun b w _ => unquoted w -> even w) (fun w _ => unquoted w -> even w)); intros.
  - apply no_string in s. contradiction.
  - destruct Hp as [[-> ->]|[-> ->]]; reflexivity.
  - destruct Hp as [[-> ->]|[-> ->]]; reflexivity.
  - destruct w0 as [W _]. apply (even_all _ _ W). chars.
  - apply even_app; [apply even_date|apply even_isspace]; assumption.
  - apply even_app; [apply even_date; assumption|]. apply even_app; [apply even_one; lia|]. apply even_app; [|apply even_isspace; assumption]. apply (even_all _ _ f). unfold clock_c. cbn [In]. chars.
  - apply unq_app in H0 as [_ U]. apply unq_app in U as [U _]. apply even_wrap, H, U.
  - apply even_wrap, even_blanks. assumption.
  - apply unq_app in H0 as [_ U]. apply unq_app in U as [U _]. apply even_wrap, H, U.
  - apply even_gap; assumption.
  - apply unq_app in H1 as [U1 U]. apply unq_app in U as [U2 U3]. apply even_app; [apply even_gap; assumption|]. apply even_app; auto.
  - apply unq_app in H0 as [U1 U]. apply unq_app in U as [U2 U3]. apply even_app; [apply even_gap; assumption|]. apply even_app; [apply even_one; lia|auto].
  - discriminate.
  - apply unq_app in H0 as [U1 U]. apply unq_app in U as [U2 U]. apply unq_app in U as [U3 U]. apply unq_app in U as [U4 _].
    apply even_app; [apply even_blanks; assumption|]. apply even_app; [apply even_key; assumption|]. apply even_app; [apply even_sep; assumption|]. apply even_app; [auto|apply even_blanks; assumption].
  - apply unq_app in H1 as [U U6]. apply unq_app in U6 as [_ U6]. apply unq_app in U as [U1 U]. apply unq_app in U as [U2 U]. apply unq_app in U as [U3 U]. apply unq_app in U as [U4 _].
    apply even_app; [|apply even_app; [apply even_one; lia|auto]].
    apply even_app; [apply even_blanks; assumption|]. apply even_app; [apply even_key; assumption|]. apply even_app; [apply even_sep; assumption|]. apply even_app; [auto|apply even_blanks; assumption].
Qed.
Lemma rest_even b w : rest_of_line b w -> unquoted w -> even w.
Proof.
  intros [m M|m k e M K E|m M|m k M K] U.
  - apply even_app; [apply even_margin, M|apply even_one; lia].
  - apply unq_app in U as [_ U]. apply unq_app in U as [U _]. apply no_comment in K. contradiction.
  - apply even_margin, M.
  - apply unq_app in U as [_ U]. apply no_comment in K. contradiction.
Qed.
Lemma line_even b w : line false b w -> unquoted w -> even w.
Proof.
  intros [cl t R|cl a k s v t A K S V R|cl a k t A K R|cl a k x t A K X R] U.
  - eapply rest_even; eassumption.
  - apply unq_app in U as [U1 U]. apply unq_app in U as [U2 U]. apply unq_app in U as [U3 U]. apply unq_app in U as [U4 U5].
    apply even_app; [apply even_blanks; assumption|]. apply even_app; [apply even_key; assumption|]. apply even_app; [apply even_sep; assumption|]. apply even_app; [apply (proj1 values_even); assumption|eapply rest_even; eassumption].
  - apply unq_app in U as [U1 U]. apply unq_app in U as [U2 U]. apply unq_app in U as [U3 U]. apply unq_app in U as [U4 U5].
    apply even_app; [apply even_margin; assumption|]. replace ([91] ++ k ++ [93] ++ t)%N with (([91] ++ k ++ [93]) ++ t)%N by (rewrite <- !app_assoc; reflexivity). apply even_app; [apply even_wrap, even_key; assumption|eapply rest_even; eassumption].
  - destruct X as [->|[X _]]; [|discriminate]. apply unq_app in U as [U1 U]. apply unq_app in U as [U2 U]. apply unq_app in U as [U3 U]. apply unq_app in U as [U4 U5]. apply unq_app in U5 as [_ U5].
    apply even_app; [apply even_margin; assumption|]. replace ([91; 91] ++ k ++ [93] ++ [93] ++ t)%N with (([91] ++ ([91] ++ k ++ [93]) ++ [93]) ++ t)%N by (cbn [app]; rewrite <- !app_assoc; reflexivity).
    apply even_app; [|eapply rest_even; eassumption]. apply even_wrap, even_wrap, even_key; assumption.
Qed.
Lemma lines_even w : lines false w -> unquoted w -> even w.
Proof. induction 1 as [|w l H IH L]; intros U; [reflexivity|]. apply unq_app in U as [U1 U2]. apply even_app; [auto|eapply line_even; eassumption]. Qed.
Lemma document_even w : document false w -> unquoted w -> even w.
Proof. intros [H|(a & l & -> & H & L)] U; [apply lines_even; assumption|]. apply unq_app in U as [U1 U2]. apply even_app; [apply lines_even; assumption|eapply line_even; eassumption]. Qed.
End Pair.
