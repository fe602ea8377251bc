(** ValueEnd: the last character of a value is neither a space nor a comma (C49). *)
From Verif Require Import Base Source Utils Items Container Arrays Parser Lemmas Strings Numbers Floats Dates Keys Grammar Denote CompNum CompDate.
From Coq Require Import ZifyBool ZifyNat ZifyN.
Open Scope nat_scope.

(** * The last character of a value *)
Definition endc (s : str) : Prop := exists u c, s = u ++ [c] /\ c <> 44%N /\ c <> 32%N.
Lemma endc_app a b : endc b -> endc (a ++ b).
Proof. intros (u & c & -> & H). exists (a ++ u), c. split; [apply app_assoc|exact H]. Qed.
Lemma endc_all s : s <> [] -> Forall (fun c => c <> 44%N /\ c <> 32%N) s -> endc s.
Proof. intros N H. destruct s as [|c s] using rev_ind; [congruence|]. apply Forall_app in H as [_ H]. inversion H; subst. exists s, c. auto. Qed.
Definition solid (s : str) : Prop := s <> [] /\ Forall (fun c => c <> 44%N /\ c <> 32%N) s.
Lemma solid_end s : solid s -> endc s.
Proof. intros [A B]. apply endc_all; assumption. Qed.
Lemma run_solid base ds w : run base ds w -> solid w.
Proof.
  intros H. destruct (run_und _ _ _ H) as [U N]. split; [exact N|]. eapply Forall_impl; [|exact U]. cbv beta. intros c [Hc| ->]; [|split; discriminate]. split; intros ->; unfold is_digit_of in Hc; cbn in Hc; discriminate.
Qed.
Lemma dchar_solid w : w <> [] -> Forall dchar w -> solid w.
Proof. intros N H. split; [exact N|]. eapply Forall_impl; [|exact H]. cbv beta. intros c Hc. apply dchar_delim in Hc as [Hc _]. split; intros ->; discriminate. Qed.
Lemma nchar_solid w : w <> [] -> Forall nchar w -> solid w.
Proof. intros N H. split; [exact N|]. eapply Forall_impl; [|exact H]. cbv beta. intros c Hc. apply nchar_facts in Hc as (_ & _ & Hc). split; intros ->; discriminate. Qed.
Lemma quote_last basic ml w m : string_means basic ml w m -> exists u, w = u ++ [quote_of basic].
Proof.
  intros (n & b & _ & _ & ->). destruct ml; [exists ([quote_of basic; quote_of basic; quote_of basic] ++ n ++ b ++ [quote_of basic; quote_of basic])|exists ([quote_of basic] ++ b)]; rewrite <- ?app_assoc; reflexivity.
Qed.
Lemma mid_ne (a : str) c b : a ++ [c] ++ b <> [].
Proof. destruct a; discriminate. Qed.
Lemma time_ne w t : time_means w t -> w <> [].
Proof. intros H. destruct H. apply mid_ne. Qed.
Lemma denotes_endc w v : denotes w v -> endc w.
Proof.
  intros H. destruct H as [basic ml w m H| | |w z H|w f H|w d H|w t H|w d H|w l _|b _|w l _].
  - destruct (quote_last _ _ _ _ H) as [a ->]. exists a, (quote_of basic). split; [reflexivity|]. destruct basic; split; discriminate.
  - apply endc_all; [discriminate|]. repeat constructor; discriminate.
  - apply endc_all; [discriminate|]. repeat constructor; discriminate.
  - destruct H as [s neg ds w Hs Hr _|ds w Hr|ds w Hr|ds w Hr]; apply endc_app, solid_end; eauto using run_solid.
  - destruct H as [s neg ip w fp ft e et Hs Hi _ Hf He _ _|s neg Hs|s neg Hs]; apply endc_app; [|apply endc_all; [discriminate|repeat constructor; discriminate]..].
    apply solid_end, nchar_solid; [|eapply float_nchar; eassumption]. destruct (run_und _ _ _ Hi) as [_ N]. destruct w; [congruence|discriminate].
  - destruct (date_is _ _ H) as [E _]. apply solid_end, dchar_solid; [|rewrite E; apply iso_dchar]. clear E. destruct H. apply mid_ne.
  - apply solid_end, dchar_solid; [eapply time_ne, H|eapply time_dchar, H].
  - destruct H as [dt t o d' t' o' x Hd Hx Ht Ho]. destruct (off_is _ _ Ho) as (_ & _ & _ & Fo). do 2 apply endc_app. apply solid_end, dchar_solid; [|apply Forall_app; split; [eapply time_dchar, Ht|exact Fo]].
    apply time_ne in Ht. destruct t; [congruence|discriminate].
  - exists ([91%N] ++ w), 93%N. split; [rewrite <- app_assoc; reflexivity|split; discriminate].
  - exists ([123%N] ++ b), 125%N. split; [rewrite <- app_assoc; reflexivity|split; discriminate].
  - exists ([123%N] ++ w), 125%N. split; [rewrite <- app_assoc; reflexivity|split; discriminate].
Qed.

