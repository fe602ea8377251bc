(** Ends: where the text of a line ends (C43, C44). *)
From Verif Require Import Base Source Utils Items Container Arrays Parser Lemmas Strings Numbers Floats Dates Keys Render ContOps Grammar Denote CompNum CompDate ValueEnd Document Neat.
From Coq Require Import ZifyBool ZifyNat ZifyN.
Open Scope nat_scope.

Definition oneline (w : str) : Prop := Forall (fun c => c <> 10%N) w.
Lemma oneline_last w u : oneline w -> w <> u ++ [10%N].
Proof. intros H ->. apply Forall_app in H as [_ H]. inversion H; congruence. Qed.
Lemma oneline_app a b : oneline a -> oneline b -> oneline (a ++ b).
Proof. intros. apply Forall_app. auto. Qed.
Lemma blanks_oneline a : Grammar.blanks a -> oneline a.
Proof. apply Forall_impl. intros c [->| ->]; discriminate. Qed.
Lemma comment_oneline k : comment k -> oneline k.
Proof. intros (t & -> & H). constructor; [discriminate|]. eapply Forall_impl; [|exact H]. cbv beta. intros c Hc ->. apply Hc. right. split; [discriminate|discriminate]. Qed.
Lemma oneline_inb w : oneline w -> inb chLF w = false.
Proof. intros H. apply Numbers.inb_false. intros F. unfold oneline in H. rewrite Forall_forall in H. apply (H _ F). reflexivity. Qed.
Lemma run_oneline base ds w : run base ds w -> oneline w.
Proof.
  intros H. destruct (run_und _ _ _ H) as [U _]. eapply Forall_impl; [|exact U]. cbv beta. intros c [Hc| ->]; [|discriminate]. intros ->. unfold is_digit_of in Hc. cbn in Hc. discriminate.
Qed.
Lemma sign_oneline s neg : sign_says s neg -> oneline s.
Proof. intros []; repeat constructor; discriminate. Qed.
Lemma dchar_oneline w : Forall dchar w -> oneline w.
Proof. apply Forall_impl. intros c Hc ->. apply dchar_delim in Hc as [Hc _]. discriminate. Qed.
Lemma nchar_oneline w : Forall nchar w -> oneline w.
Proof. apply Forall_impl. intros c Hc ->. apply nchar_facts in Hc as (_ & Hc & _). apply Hc. reflexivity. Qed.
Lemma last_char (w u a : str) c : w = a ++ [c] -> c <> 10%N -> w <> u ++ [10%N].
Proof. intros -> N E. apply app_inj_tail in E as [_ E]. congruence. Qed.
Lemma denotes_last w v : denotes w v -> forall u, w <> u ++ [10%N].
Proof.
  intros H u. destruct H as [basic ml w m H| | |w z H|w f H|w d H|w t H|w d H|w l _|b _|w l _].
  - destruct (quote_last _ _ _ _ H) as [a E]. eapply last_char; [exact E|destruct basic; discriminate].
  - apply oneline_last. repeat constructor; discriminate.
  - apply oneline_last. repeat constructor; discriminate.
  - apply oneline_last. destruct H as [s neg ds w Hs Hr _|ds w Hr|ds w Hr|ds w Hr]; apply oneline_app; eauto using run_oneline, sign_oneline; repeat constructor; discriminate.
  - apply oneline_last. destruct H as [s neg ip w fp ft e et Hs Hi _ Hf He _ _|s neg Hs|s neg Hs]; apply oneline_app; eauto using sign_oneline; [|repeat constructor; discriminate..].
    apply nchar_oneline. eapply float_nchar; eassumption.
  - apply oneline_last. destruct (date_is _ _ H) as [-> _]. apply dchar_oneline, iso_dchar.
  - apply oneline_last. eapply dchar_oneline, time_dchar, H.
  - apply oneline_last. destruct H as [dt t o d' t' o' x Hd Hx Ht Ho]. destruct (date_is _ _ Hd) as [-> _]. destruct (off_is _ _ Ho) as (_ & _ & _ & Fo).
    apply oneline_app; [apply dchar_oneline, iso_dchar|]. apply oneline_app; [|apply oneline_app; [eapply dchar_oneline, time_dchar, Ht|apply dchar_oneline, Fo]]. constructor; [|constructor]. destruct Hx as [->|[->| ->]]; discriminate.
  - eapply last_char; [rewrite app_assoc; reflexivity|discriminate].
  - eapply last_char; [rewrite app_assoc; reflexivity|discriminate].
  - eapply last_char; [rewrite app_assoc; reflexivity|discriminate].
Qed.

(** * The last line *)
(** Something follows [w], or [w] is empty or ends with a line feed. *)
Definition fin (z w : str) : Prop := z <> [] \/ w = [] \/ exists u, w = u ++ [10%N].
Lemma fin_right z u w : fin z (u ++ w) -> fin z w.
Proof.
  intros [H|[H|[a H]]]; [left; exact H|right; left; apply app_eq_nil in H; tauto|]. destruct w as [|x w] using rev_ind; [right; left; reflexivity|]. rewrite app_assoc in H. apply app_inj_tail in H as [_ ->]. right. right. eauto.
Qed.
Lemma fin_left z u w : fin z (u ++ w) -> fin (w ++ z) u.
Proof.
  intros H. destruct w as [|x w]; [|left; discriminate]. rewrite app_nil_r in H. destruct z; [|left; discriminate]. exact H.
Qed.
Lemma tail_eol z t : line_tail z t -> z <> [] \/ (exists u, t = u ++ [10%N]) -> eol t.
Proof.
  intros (b & c & e & -> & Hb & Hc & He) H. exists b, c, e. split; [reflexivity|]. split; [exact Hb|]. split; [exact Hc|]. destruct He as [He|[He|[-> ->]]]; [left; exact He|right; exact He|].
  exfalso. destruct H as [H|[u H]]; [congruence|]. rewrite app_nil_r in H. revert H. apply oneline_last, oneline_app; [apply blanks_oneline, Hb|]. destruct Hc as [->|Hc]; [constructor|apply comment_oneline, Hc].
Qed.
Lemma void_eol z t : line_tail z t -> t <> [] -> fin z t -> eol t.
Proof. intros H N [F|[F|F]]; [|congruence|]; apply (tail_eol z); auto. Qed.
(** The rest of a line after [x] that does not end with a line feed. *)
Lemma after_eol z x t : line_tail z t -> x <> [] -> (forall u, x <> u ++ [10%N]) -> fin z (x ++ t) -> eol t.
Proof.
  intros H N L [F|[F|[u F]]]; [apply (tail_eol z); auto|apply app_eq_nil in F; tauto|]. apply (tail_eol z); [exact H|]. right. destruct t as [|c t] using rev_ind.
  - rewrite app_nil_r in F. exfalso. eapply L, F.
  - rewrite app_assoc in F. apply app_inj_tail in F as [_ ->]. eauto.
Qed.
