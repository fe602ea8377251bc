(** From comma placement (ArrayTidy.v) to the value texts of TOML (Denote.v). *)
From Verif Require Grammar CompStr.
From Verif Require Import Base Utils Items PyVal ArrayTidy Denote.
Open Scope nat_scope.

Lemma ws_space c : is_ws c = true -> Grammar.space_c c.
Proof. apply CompStr.space_ws. Qed.
Lemma gap_cons c s : Grammar.space_c c -> Grammar.gap s -> Grammar.gap (c :: s).
Proof.
  intros Hc H. destruct H as [w Hw|w k d r Hw Hk Hd Hr]; [apply Grammar.gap_ws; constructor; assumption|].
  apply (Grammar.gap_comment (c :: w) k d r); [constructor; assumption|assumption..].
Qed.
Lemma gap_gram s : gap s -> Grammar.gap s.
Proof.
  induction 1 as [|c s Hc _ IH|body c s Hb Hc _ IH]; [apply Grammar.gap_ws; constructor|apply gap_cons; [apply ws_space, Hc|exact IH]|].
  assert (Nc : Grammar.newline_c c) by (unfold is_nl in Hc; apply orb_true_iff in Hc as [Hc|Hc]; apply N.eqb_eq in Hc; subst; [left|right]; reflexivity).
  apply (Grammar.gap_comment [] (chHASH :: body) c s); [constructor| |exact Nc|].
  - exists body. split; [reflexivity|exact Hb].
  - apply gap_cons; [right; exact Nc|exact IH].
Qed.
Lemma comma_elements ws s : comma_list ws s -> forall vs, Forall2 denotes ws vs -> elements false s vs.
Proof.
  induction 1 as [b Hb|b v b' Hb Hb'|b v b' Hb Hb'|b v ws s Hb N M IH]; intros vs F; inversion F as [|? x ? xs D F']; subst.
  - apply em_end, gap_gram, Hb.
  - inversion F'; subst. apply em_value; [apply gap_gram, Hb|exact D|]. apply em_end, gap_gram, Hb'.
  - inversion F'; subst. apply em_value; [apply gap_gram, Hb|exact D|]. apply (em_comma [] b'); [apply Grammar.gap_ws; constructor|]. apply em_end, gap_gram, Hb'.
  - apply em_value; [apply gap_gram, Hb|exact D|]. apply (em_comma [] s); [apply Grammar.gap_ws; constructor|]. apply IH, F'.
Qed.
