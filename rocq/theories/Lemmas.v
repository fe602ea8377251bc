(** Lemmas: general facts about strings and about the parser monad. *)
From Verif Require Import Base Source Utils Items Container.
From Coq Require Import ZifyBool ZifyNat ZifyN Permutation.

#[global] Arguments N.eqb : simpl never.
#[global] Arguments N.leb : simpl never.
#[global] Arguments N.ltb : simpl never.
#[global] Arguments N.add : simpl never.
#[global] Arguments N.sub : simpl never.
#[global] Arguments N.mul : simpl never.

Lemma str_eqb_eq a b : str_eqb a b = true <-> a = b.
Proof.
  revert b; induction a as [|x a IH]; destruct b as [|y b]; simpl; split; intro H; try congruence.
  - apply andb_true_iff in H as [H1 H2]. apply N.eqb_eq in H1. apply IH in H2. congruence.
  - inversion H; subst. rewrite N.eqb_refl. simpl. apply IH; reflexivity.
Qed.
Lemma str_eqb_refl a : str_eqb a a = true.
Proof. apply str_eqb_eq; reflexivity. Qed.
Lemma str_eqb_neq a b : str_eqb a b = false <-> a <> b.
Proof.
  split; intros H.
  - intros ->. rewrite str_eqb_refl in H. discriminate.
  - destruct (str_eqb a b) eqn:E; [|reflexivity]. apply str_eqb_eq in E. congruence.
Qed.
Lemma str_eqb_sym a b : str_eqb a b = str_eqb b a.
Proof.
  destruct (str_eqb b a) eqn:E.
  - apply str_eqb_eq in E. subst. apply str_eqb_refl.
  - apply str_eqb_neq in E. apply str_eqb_neq. congruence.
Qed.
Lemma str_eq_dec (a b : str) : {a = b} + {a <> b}.
Proof. apply list_eq_dec, N.eq_dec. Qed.

Lemma inb_In c s : inb c s = true <-> In c s.
Proof.
  unfold inb. rewrite existsb_exists. split.
  - intros [x [Hx He]]. apply N.eqb_eq in He. subst; exact Hx.
  - intros H. exists c. split; [exact H | apply N.eqb_refl].
Qed.
Lemma inb_app c a b : inb c (a ++ b) = inb c a || inb c b.
Proof. apply existsb_app. Qed.

Lemma startswith_spec p s : startswith p s = true <-> exists r, s = p ++ r.
Proof.
  revert s; induction p as [|x p IH]; intros s; simpl.
  - split; eauto.
  - destruct s as [|y s].
    + split; [discriminate | intros [r Hr]; discriminate].
    + rewrite andb_true_iff, N.eqb_eq, IH. split.
      * intros [-> [r ->]]. eauto.
      * intros [r Hr]. inversion Hr; subst. eauto.
Qed.
Lemma startswith_app p r : startswith p (p ++ r) = true.
Proof. apply startswith_spec. eauto. Qed.

Lemma substr_spec p s : substr p s = true <-> exists a b, s = a ++ p ++ b.
Proof.
  induction s as [|c s IH]; simpl.
  - rewrite orb_false_r, startswith_spec. split.
    + intros [r Hr]. exists [], r. exact Hr.
    + intros [a [b Hab]]. destruct a; [simpl in Hab; eauto | discriminate].
  - rewrite orb_true_iff, startswith_spec, IH. split.
    + intros [[r Hr] | [a [b Hab]]].
      * exists [], r. exact Hr.
      * exists (c :: a), b. simpl. congruence.
    + intros [a [b Hab]]. destruct a as [|x a]; simpl in Hab.
      * left. eauto.
      * right. inversion Hab; subst. eauto.
Qed.
Lemma substr_single c s : substr [c] s = inb c s.
Proof.
  destruct (inb c s) eqn:E.
  - apply inb_In in E. apply in_split in E as [a [b ->]]. apply substr_spec. exists a, b. reflexivity.
  - destruct (substr [c] s) eqn:F; [|reflexivity].
    apply substr_spec in F as [a [b ->]].
    assert (In c (a ++ [c] ++ b)) by (apply in_or_app; right; left; reflexivity).
    apply inb_In in H. congruence.
Qed.

(** take_while / drop_while *)
Lemma take_drop p s : take_while p s ++ drop_while p s = s.
Proof. induction s as [|c s IH]; simpl; [reflexivity|]. destruct (p c); simpl; congruence. Qed.
Lemma take_while_all p s : Forall (fun c => p c = true) (take_while p s).
Proof. induction s as [|c s IH]; simpl; [constructor|]. destruct (p c) eqn:E; constructor; auto. Qed.
Lemma drop_while_head p s c r : drop_while p s = c :: r -> p c = false.
Proof.
  induction s as [|d s IH]; simpl; [discriminate|].
  destruct (p d) eqn:E; intros H; [auto|]. inversion H; subst; exact E.
Qed.
Lemma take_while_app p a b :
  Forall (fun c => p c = true) a -> (match b with [] => True | c :: _ => p c = false end) ->
  take_while p (a ++ b) = a /\ drop_while p (a ++ b) = b.
Proof.
  induction a as [|c a IH]; intros Ha Hb; simpl.
  - destruct b as [|c b]; simpl; [auto|]. rewrite Hb. auto.
  - inversion Ha; subst. rewrite H1. destruct (IH H2 Hb) as [E1 E2]. rewrite E1, E2. auto.
Qed.
Lemma take_while_nil p s : (match s with [] => True | c :: _ => p c = false end) -> take_while p s = [].
Proof. destruct s; simpl; [auto|]. intros ->. reflexivity. Qed.
Lemma drop_while_nil p s : (match s with [] => True | c :: _ => p c = false end) -> drop_while p s = s.
Proof. destruct s; simpl; [auto|]. intros ->. reflexivity. Qed.

Lemma skipn_length_app {A} (a b : list A) : skipn (List.length a) (a ++ b) = b.
Proof. rewrite skipn_app, skipn_all, Nat.sub_diag. reflexivity. Qed.
Lemma firstn_length_app {A} (a b : list A) : firstn (List.length a) (a ++ b) = a.
Proof. rewrite firstn_app, firstn_all, Nat.sub_diag. simpl. apply app_nil_r. Qed.
Lemma skipn_skipn' {A} m n (l : list A) : skipn m (skipn n l) = skipn (n + m) l.
Proof.
  revert l; induction n as [|n IH]; intros l; [reflexivity|].
  destruct l; simpl; [apply skipn_nil | apply IH].
Qed.

(** The parser monad *)
Lemma bind_ok {A B} (m : M A) (f : A -> M B) st a st1 :
  m st = (Ok a, st1) -> bind m f st = f a st1.
Proof. intros H. unfold bind. rewrite H. reflexivity. Qed.
Lemma bind_err {A B} (m : M A) (f : A -> M B) st e st1 :
  m st = (Err e, st1) -> bind m f st = (Err e, st1).
Proof. intros H. unfold bind. rewrite H. reflexivity. Qed.
Lemma bind_inv {A B} (m : M A) (f : A -> M B) st b st' :
  bind m f st = (Ok b, st') -> exists a st1, m st = (Ok a, st1) /\ f a st1 = (Ok b, st').
Proof.
  unfold bind. destruct (m st) as [[a|e] st1] eqn:E; intros H; [eauto | discriminate].
Qed.
Lemma bind_inv_err {A B} (m : M A) (f : A -> M B) st e st' :
  bind m f st = (Err e, st') ->
  m st = (Err e, st') \/ exists a st1, m st = (Ok a, st1) /\ f a st1 = (Err e, st').
Proof.
  unfold bind. destruct (m st) as [[a|e0] st1] eqn:E; intros H; [eauto | left; congruence].
Qed.

Lemma rbind_inv {A B} (m : res A) (f : A -> res B) b :
  rbind m f = Ok b -> exists a, m = Ok a /\ f a = Ok b.
Proof. destruct m; simpl; intros H; [eauto | discriminate]. Qed.
