(** Trees: the order of the statements "names = value" does not matter (C50). *)
From Verif Require Import Lines Base Lemmas Utils PyVal Denote.
From Coq Require Import Permutation ZifyBool ZifyNat ZifyN.
Open Scope nat_scope.

Notation tree := (list (str * node)).
(** [names] leads to the value [v]. *)
Inductive has : tree -> list str -> pyv -> Prop :=
  | has_value k v l : In (k, Value v) l -> has l [k] v
  | has_names k m p v l : In (k, Names m) l -> has m p v -> has l (k :: p) v.
Inductive wft : tree -> Prop :=
  | wft_intro l : NoDup (map fst l) -> (forall k m, In (k, Names m) l -> m <> [] /\ wft m) -> wft l.
Lemma wft_rec' (P : tree -> Prop) : (forall l, NoDup (map fst l) -> (forall k m, In (k, Names m) l -> m <> [] /\ wft m) -> (forall k m, In (k, Names m) l -> P m) -> P l) -> forall l, wft l -> P l.
Proof. intros H. fix IH 2. intros l [l' Nd Hw]. apply H; [exact Nd|exact Hw|]. intros k m I. exact (match Hw k m I with conj _ W => IH m W end). Qed.
(** Neither is a beginning of the other. *)
Inductive apart : list str -> list str -> Prop :=
  | ap_head a b p q : a <> b -> apart (a :: p) (b :: q)
  | ap_tail a p q : apart p q -> apart (a :: p) (a :: q).
Lemma apart_sym p q : apart p q -> apart q p.
Proof. induction 1; [apply ap_head; congruence|apply ap_tail; assumption]. Qed.
Lemma one_node (l : tree) k n n' : NoDup (map fst l) -> In (k, n) l -> In (k, n') l -> n = n'.
Proof.
  induction l as [|[k0 n0] l IH]; intros Nd A B; [destruct A|]. cbn [map fst] in Nd. inversion Nd as [|? ? Ni Nd']; subst.
  destruct A as [A|A], B as [B|B]; [congruence| | |auto]; exfalso; apply Ni; [inversion A; subst; apply in_map_iff; exists (k, n'); auto|inversion B; subst; apply in_map_iff; exists (k, n); auto].
Qed.
Lemma has_head l p v : has l p v -> exists k q, p = k :: q /\ In k (map fst l).
Proof. intros [k w l' H|k m q w l' H _]; eexists _, _; (split; [reflexivity|]); apply in_map_iff; eexists; (split; [|exact H]); reflexivity. Qed.
Lemma has_none p v : ~ has [] p v.
Proof. intros H. destruct (has_head _ _ _ H) as (? & ? & _ & []). Qed.
Lemma wft_nil : wft []. Proof. constructor; [constructor|intros ? ? []]. Qed.
Lemma wft_some l : wft l -> l <> [] -> exists p v, has l p v.
Proof.
  induction 1 as [l Nd H IH] using wft_rec'. intros N. destruct l as [|[k [v|m]] l]; [congruence| |].
  - exists [k], v. constructor. left. reflexivity.
  - destruct (H k m (or_introl eq_refl)) as [Nm _]. destruct (IH k m (or_introl eq_refl) Nm) as (p & v & Hp). exists (k :: p), v. econstructor; [left; reflexivity|exact Hp].
Qed.
Lemma put_some ns v t t' : put ns v t t' -> t' <> [].
Proof. intros H E. inversion H; subst; match goal with Q : ?a ++ _ = [] |- _ => destruct a; discriminate end. Qed.
Lemma put_has ns v t t' : put ns v t t' -> forall p x, has t' p x <-> has t p x \/ (p = ns /\ x = v).
Proof.
  induction 1 as [k v l Ni|k r v l m Ni P IH|k r v a m m' b P IH]; intros p x.
  - split.
    + intros H. inversion H as [k' w l' I|k' m q w l' I Hm]; subst; apply in_app_iff in I; destruct I as [I|[I|[]]]; try discriminate; [left; constructor; exact I|inversion I; subst; auto|left; econstructor; eauto].
    + intros [H|[-> ->]]; [|constructor; apply in_app_iff; right; left; reflexivity]. inversion H; subst; [apply has_value|eapply has_names; [|eassumption]]; apply in_app_iff; left; assumption.
  - split.
    + intros H. inversion H as [k' w l' I|k' m0 q w l' I Hm]; subst; apply in_app_iff in I; destruct I as [I|[I|[]]]; try discriminate; [left; constructor; exact I|left; econstructor; eauto|]. inversion I; subst. apply IH in Hm as [Hm|[-> ->]]; [destruct (has_none _ _ Hm)|auto].
    + intros [H|[-> ->]]; [|eapply has_names; [apply in_app_iff; right; left; reflexivity|apply IH; auto]]. inversion H; subst; [apply has_value|eapply has_names; [|eassumption]]; apply in_app_iff; left; assumption.
  - split.
    + intros H. inversion H as [k' w l' I|k' m0 q w l' I Hm]; subst; apply in_app_iff in I; destruct I as [I|[I|I]]; try discriminate.
      * left. constructor. apply in_app_iff. auto.
      * left. constructor. apply in_app_iff. right. right. exact I.
      * left. econstructor; [|exact Hm]. apply in_app_iff. auto.
      * inversion I; subst. apply IH in Hm as [Hm|[-> ->]]; [|auto]. left. econstructor; [|exact Hm]. apply in_app_iff. right. left. reflexivity.
      * left. econstructor; [|exact Hm]. apply in_app_iff. right. right. exact I.
    + intros [H|[-> ->]]; [|eapply has_names; [apply in_app_iff; right; left; reflexivity|apply IH; auto]].
      inversion H as [k' w l' I|k' m0 q w l' I Hm]; subst; apply in_app_iff in I; destruct I as [I|[I|I]]; try discriminate.
      * constructor. apply in_app_iff. auto.
      * constructor. apply in_app_iff. right. right. exact I.
      * econstructor; [|exact Hm]. apply in_app_iff. auto.
      * inversion I; subst. econstructor; [apply in_app_iff; right; left; reflexivity|]. apply IH. auto.
      * econstructor; [|exact Hm]. apply in_app_iff. right. right. exact I.
Qed.
Lemma nodup_end {A} (l : list (str * A)) k n : NoDup (map fst l) -> ~ In k (map fst l) -> NoDup (map fst (l ++ [(k, n)])).
Proof.
  intros Nd Ni. rewrite map_app. cbn [map fst]. rewrite <- (rev_involutive (map fst l ++ _)), rev_app_distr. apply NoDup_rev. cbn [rev app]. constructor; [rewrite <- in_rev; exact Ni|apply NoDup_rev, Nd].
Qed.
Lemma put_wft ns v t t' : put ns v t t' -> wft t -> wft t'.
Proof.
  induction 1 as [k v l Ni|k r v l m Ni P IH|k r v a m m' b P IH]; intros W; inversion W as [? Nd H]; subst; constructor.
  - apply nodup_end; assumption.
  - intros k0 m0 I. apply in_app_iff in I as [I|[I|[]]]; [eauto|discriminate].
  - apply nodup_end; assumption.
  - intros k0 m0 I. apply in_app_iff in I as [I|[I|[]]]; [eauto|]. inversion I; subst. split; [eapply put_some, P|apply IH, wft_nil].
  - rewrite map_app in *. exact Nd.
  - intros k0 m0 I. apply in_app_iff in I as [I|[I|I]]; [apply (H k0); apply in_app_iff; auto| |apply (H k0); apply in_app_iff; right; right; exact I]. inversion I; subst. split; [eapply put_some, P|]. apply IH. apply (H k0). apply in_app_iff. right. left. reflexivity.
Qed.
Lemma put_apart ns v t t' : put ns v t t' -> wft t -> forall p x, has t p x -> apart p ns.
Proof.
  induction 1 as [k v l Ni|k r v l m Ni P IH|k r v a m m' b P IH]; intros W p x H.
  - destruct (has_head _ _ _ H) as (k' & q & -> & I). apply ap_head. intros ->. contradiction.
  - destruct (has_head _ _ _ H) as (k' & q & -> & I). apply ap_head. intros ->. contradiction.
  - inversion W as [? Nd Hw]; subst. assert (Im : In (k, Names m) (a ++ (k, Names m) :: b)) by (apply in_app_iff; right; left; reflexivity).
    inversion H as [k' w l' I|k' m0 q w l' I Hm]; subst.
    + apply ap_head. intros ->. pose proof (one_node _ _ _ _ Nd I Im). discriminate.
    + destruct (str_eqb k' k) eqn:E; [|apply ap_head, str_eqb_neq, E]. apply str_eqb_eq in E. subst k'. pose proof (one_node _ _ _ _ Nd I Im) as X. injection X as ->. apply ap_tail. eapply IH; [apply (Hw k m Im)|exact Hm].
Qed.
Lemma put_exists v ns : forall t, ns <> [] -> wft t -> (forall p x, has t p x -> apart p ns) -> exists t', put ns v t t'.
Proof.
  induction ns as [|k r IH]; intros t Ne W Ap; [congruence|]. destruct (in_dec (list_eq_dec N.eq_dec) k (map fst t)) as [I|I].
  - apply in_map_iff in I as ([k0 n] & E & I). cbn [fst] in E. subst k0. destruct n as [x|m].
    + specialize (Ap _ _ (has_value _ _ _ I)). inversion Ap as [? ? ? ? X|? ? ? X]; subst; [congruence|inversion X].
    + inversion W as [? Nd Hw]; subst. destruct (Hw _ _ I) as [Nm Wm]. assert (Am : forall p x, has m p x -> apart p r).
      { intros p x Hp. specialize (Ap _ _ (has_names _ _ _ _ _ I Hp)). inversion Ap as [? ? ? ? X|? ? ? X]; subst; [congruence|exact X]. }
      destruct r as [|r0 r]; [destruct (wft_some m Wm Nm) as (p & x & Hp); specialize (Am _ _ Hp); inversion Am|].
      destruct (IH m ltac:(discriminate) Wm Am) as (m' & P). apply in_split in I as (a & b & ->). exists (a ++ (k, Names m') :: b). constructor. exact P.
  - destruct r as [|r0 r]; [exists (t ++ [(k, Value v)]); constructor; exact I|]. destruct (IH [] ltac:(discriminate) wft_nil) as (m & P); [intros p x H; destruct (has_none _ _ H)|]. exists (t ++ [(k, Names m)]). constructor; assumption.
Qed.

(** * Sequences of statements *)
Lemma puts_has t ss t' : puts t ss t' -> wft t -> wft t' /\ forall p x, has t' p x <-> has t p x \/ In (p, x) ss.
Proof.
  induction 1 as [t|t ns v t1 ss t2 P Ps IH]; intros W; [split; [exact W|]; intros; cbn; tauto|]. destruct (IH (put_wft _ _ _ _ P W)) as [W2 H]. split; [exact W2|]. intros p x. rewrite H, (put_has _ _ _ _ P). cbn [In].
  split; [intros [[A|[-> ->]]|A]; auto|intros [A|[A|A]]; [auto|inversion A; subst; auto|auto]].
Qed.
Definition clear (ss : list stmt) : Prop := ForallOrdPairs (fun a b => apart (fst a) (fst b)) ss /\ Forall (fun s => fst s <> []) ss.
Lemma puts_clear t ss t' : puts t ss t' -> wft t -> clear ss /\ forall p x, has t p x -> Forall (fun s => apart p (fst s)) ss.
Proof.
  induction 1 as [t|t ns v t1 ss t2 P Ps IH]; intros W; [split; [split; constructor|constructor]|]. destruct (IH (put_wft _ _ _ _ P W)) as [[C1 C2] H]. split; [split|].
  - constructor; [|exact C1]. apply (H ns v). apply (put_has _ _ _ _ P). auto.
  - constructor; [eapply put_ne, P|exact C2].
  - intros p x Hp. constructor; [eapply put_apart; eauto|]. apply (H p x). apply (put_has _ _ _ _ P). auto.
Qed.
Lemma puts_exists ss : forall t, wft t -> clear ss -> (forall p x, has t p x -> Forall (fun s => apart p (fst s)) ss) -> exists t', puts t ss t'.
Proof.
  induction ss as [|[ns v] ss IH]; intros t W [C1 C2] Ap; [exists t; constructor|]. inversion C1 as [|? ? F1 F2]; subst. inversion C2 as [|? ? N1 N2]; subst. cbn [fst] in *.
  destruct (put_exists v ns t N1 W) as (t1 & P); [intros p x H; specialize (Ap p x H); inversion Ap; assumption|]. destruct (IH t1 (put_wft _ _ _ _ P W)) as (t' & Ps); [split; assumption| |exists t'; econstructor; eauto].
  intros p x H. apply (put_has _ _ _ _ P) in H as [H|[-> ->]]; [specialize (Ap p x H); inversion Ap; assumption|exact F1].
Qed.
Lemma clear_perm ss ss' : Permutation ss ss' -> clear ss -> clear ss'.
Proof.
  intros H. induction H as [|x l l' H IH|x y l|l l1 l2 H1 IH1 H2 IH2]; intros [A B]; auto.
  - split; constructor.
  - inversion A as [|? ? A1 A2]; subst. inversion B as [|? ? B1 B2]; subst. destruct (IH (conj A2 B2)) as [A3 B3]. split; constructor; auto. eapply Permutation_Forall; eauto.
  - inversion A as [|? ? A1 A2]; subst. inversion A2 as [|? ? A3 A4]; subst. inversion A1 as [|? ? A5 A6]; subst. inversion B as [|? ? B1 B2]; subst. inversion B2; subst. split; [|repeat constructor; assumption].
    constructor; [|constructor; assumption]. constructor; [apply apart_sym, A5|exact A3].
  - apply IH2, IH1. split; assumption.
Qed.
(** * Trees with the same facts *)
Lemma tree_same t : wft t -> forall t', wft t' -> (forall p x, has t p x <-> has t' p x) -> pyeq (PDict (dict_of t)) (PDict (dict_of t')).
Proof.
  induction 1 as [t Nd Hw IH] using wft_rec'. intros t' W' F. inversion W' as [? Nd' Hw']; subst.
  assert (K : forall l (Hl : forall k m, In (k, Names m) l -> m <> [] /\ wft m) k, In k (map fst l) -> exists p x, has l (k :: p) x).
  { intros l Hl k I. apply in_map_iff in I as ([k0 [v|m]] & E & I); cbn [fst] in E; subst k0; [exists [], v; constructor; exact I|]. destruct (Hl _ _ I) as [Nm Wm]. destruct (wft_some m Wm Nm) as (p & x & Hp). exists p, x. econstructor; eauto. }
  assert (P : Permutation (map fst t') (map fst t)).
  { apply NoDup_Permutation; [exact Nd'|exact Nd|]. intros k. split; intros I.
    - destruct (K t' Hw' k I) as (p & x & H). apply F in H. destruct (has_head _ _ _ H) as (k' & q & E & X). injection E as -> _. exact X.
    - destruct (K t Hw k I) as (p & x & H). apply F in H. destruct (has_head _ _ _ H) as (k' & q & E & X). injection E as -> _. exact X. }
  destruct (Permutation_map_inv _ _ P) as (t1 & E & P1). apply (pe_dict _ (dict_of t1)); [unfold dict_of; apply Permutation_map, P1|].
  assert (In1 : forall e, In e t1 -> In e t) by (intros e X; eapply Permutation_in; [apply Permutation_sym, P1|exact X]).
  assert (G : forall u u', (forall e, In e u -> In e t) -> (forall e, In e u' -> In e t') -> map fst u' = map fst u -> Forall2 (fun a b : str * pyv => fst a = fst b /\ pyeq (snd a) (snd b)) (dict_of u) (dict_of u')).
  2: { apply G; auto. }
  induction u as [|[k n] u IHu]; intros [|[k' n'] u'] A B Ek; try discriminate; cbn [dict_of map]; constructor.
  - cbn [map fst] in Ek. injection Ek as -> _. cbn [fst snd]. split; [reflexivity|]. pose proof (A _ (or_introl eq_refl)) as I. pose proof (B _ (or_introl eq_refl)) as I'.
    assert (V : forall (l : tree) v q, NoDup (map fst l) -> has l [k] v -> In (k, q) l -> q = Value v).
    { intros l v q N0 H X. inversion H as [? ? ? Y|? ? ? ? ? Y Hm]; subst; [eapply one_node; eauto|]. destruct (has_head _ _ _ Hm) as (? & ? & Z & _). discriminate. }
    destruct n as [v|m].
    + pose proof (has_value _ _ _ I) as H. apply F in H. rewrite (V t' v n' Nd' H I'). apply pe_refl.
    + destruct n' as [v|m']; [pose proof (has_value _ _ _ I') as H; apply F in H; pose proof (V t v _ Nd H I); discriminate|].
      rewrite !node_names. destruct (Hw' _ _ I') as [_ Wm']. eapply IH; [exact I|exact Wm'|]. intros p x. split; intros H.
      * pose proof (has_names _ _ _ _ _ I H) as Q. apply F in Q. inversion Q as [? ? ? Y|? m0 ? ? ? Y Hm]; subst; [destruct (has_head _ _ _ H) as (? & ? & Z & _); discriminate|]. pose proof (one_node _ _ _ _ Nd' Y I') as Z. injection Z as ->. exact Hm.
      * pose proof (has_names _ _ _ _ _ I' H) as Q. apply F in Q. inversion Q as [? ? ? Y|? m0 ? ? ? Y Hm]; subst; [destruct (has_head _ _ _ H) as (? & ? & Z & _); discriminate|]. pose proof (one_node _ _ _ _ Nd Y I) as Z. injection Z as ->. exact Hm.
  - cbn [map fst] in Ek. injection Ek as _ Ek. apply IHu; [intros; apply A; right; assumption|intros; apply B; right; assumption|exact Ek].
Qed.
Theorem puts_permuted ss ss' t : puts [] ss t -> Permutation ss ss' -> exists t', puts [] ss' t' /\ pyeq (PDict (dict_of t')) (PDict (dict_of t)).
Proof.
  intros P Pm. destruct (puts_clear _ _ _ P wft_nil) as [C _]. destruct (puts_exists ss' [] wft_nil (clear_perm _ _ Pm C)) as (t' & P'); [intros p x H; destruct (has_none _ _ H)|].
  exists t'. split; [exact P'|]. destruct (puts_has _ _ _ P wft_nil) as [W H]. destruct (puts_has _ _ _ P' wft_nil) as [W' H']. apply tree_same; auto. intros p x. rewrite H, H'.
  split; (intros [X|X]; [auto|right]); [eapply Permutation_in; [apply Permutation_sym, Pm|exact X]|eapply Permutation_in; eauto].
Qed.
