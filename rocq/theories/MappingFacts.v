(** MappingFacts: the dict methods of documents and tables are those of dicts (C51). *)
From Verif Require Import Lines Base Source Utils Items Container Arrays Parser Lemmas Consist OMap ContOps ContText Wf Render ListSpec ArrayLemmas ItemInd PyVal PyItem ItemConv Unwrap Grammar Denote Neat DocSpot MadeNeat EditAll Lookup Edit Changes Possible Memory Mapping MappingSpec.
From Coq Require Import Permutation ZifyBool ZifyNat ZifyN.
Open Scope nat_scope.

(** * Dicts in dicts *)
Inductive reaches : list (str * pyv) -> list pstep -> list (str * pyv) -> Prop :=
  | re_here d : reaches d [] d
  | re_key k p d x y : NoDup (map fst d) -> In (k, PDict x) d -> reaches x p y -> reaches d (Edit.Key k :: p) y
  | re_elem k j p d l x y : NoDup (map fst d) -> In (k, PList l) d -> nth_error l j = Some (PDict x) -> reaches x p y -> reaches d (Edit.Key k :: Index j :: p) y.
Lemma pyeq_pairs a b : pyeq (PDict a) (PDict b) -> (forall k v, In (k, v) a -> exists v', In (k, v') b /\ pyeq v v') /\ Permutation (map fst a) (map fst b).
Proof.
  intros H. inversion H as [| | |? l1 ? P F]; subst; [split; [intros k v I; exists v; split; [exact I|apply pe_refl]|apply Permutation_refl]|]. split.
  - intros k v I. apply (Permutation_in _ P) in I. clear -F I. induction F as [|[k1 v1] [k2 v2] l l' [E Q] _ IH]; [destruct I|]. cbn [fst snd] in *. destruct I as [I|I]; [injection I as <- <-; subst k2; exists v2; split; [left; reflexivity|exact Q]|]. destruct (IH I) as (v' & J & Q'). exists v'. split; [right; exact J|exact Q'].
  - rewrite (Permutation_map fst P). clear -F. induction F as [|x y l l' [E Q] _ IH]; [apply Permutation_refl|]. cbn [map]. rewrite E. apply perm_skip, IH.
Qed.
Lemma pyeq_dict x v : pyeq (PDict x) v -> exists y, v = PDict y.
Proof. inversion 1; eauto. Qed.
Lemma pyeq_nth l v j x : pyeq (PList l) v -> nth_error l j = Some x -> exists l' x', v = PList l' /\ nth_error l' j = Some x' /\ pyeq x x'.
Proof.
  intros H N. inversion H as [| |? l' F|]; subst; [exists l, x; repeat split; [exact N|apply pe_refl]|]. exists l'. revert j N. induction F as [|a b l l' Q F IH]; intros [|j] N; try discriminate; [injection N as <-; exists b; auto|]. cbn [nth_error] in *.
  destruct (IH (pe_list _ _ F) j N) as (x' & _ & A & B). exists x'. auto.
Qed.
Lemma reaches_pyeq d p x : reaches d p x -> forall d', pyeq (PDict d) (PDict d') -> exists x', reaches d' p x' /\ pyeq (PDict x) (PDict x').
Proof.
  induction 1 as [d|k p d x y Nd I _ IH|k j p d l x y Nd I N _ IH]; intros d' Q; [exists d'; split; [constructor|exact Q]| |]; destruct (pyeq_pairs _ _ Q) as [Pa Pe]; destruct (Pa _ _ I) as (v & J & Qv); pose proof (Permutation_NoDup Pe Nd) as Nd'.
  - destruct (pyeq_dict _ _ Qv) as (z & ->). destruct (IH z Qv) as (x' & R & Q'). exists x'. split; [econstructor; eauto|exact Q'].
  - destruct (pyeq_nth _ _ _ _ Qv N) as (l' & u & -> & N' & Qu). destruct (pyeq_dict _ _ Qu) as (z & ->). destruct (IH z Qu) as (x' & R & Q'). exists x'. split; [eapply re_elem; eauto|exact Q'].
Qed.
Lemma alone (a b : list (str * pyv)) k v w : ~ In k (map fst (a ++ b)) -> In (k, w) (a ++ (k, v) :: b) -> w = v.
Proof.
  intros N I. apply in_app_iff in I as [I|[I|I]]; [|congruence|]; exfalso; apply N, in_map_iff; exists (k, w); (split; [reflexivity|]); apply in_app_iff; auto.
Qed.
Lemma reaches_one d p x : reaches d p x -> forall x', reaches d p x' -> x' = x.
Proof.
  assert (U : forall (d : list (str * pyv)) k v w, NoDup (map fst d) -> In (k, v) d -> In (k, w) d -> w = v).
  { intros d0 k v w Nd I J. apply in_split in I as (a & b & ->). apply alone in J; [exact J|]. rewrite map_app in Nd. cbn [map fst] in Nd. apply NoDup_remove_2 in Nd. rewrite map_app. exact Nd. }
  induction 1 as [d|k p d x y Nd I _ IH|k j p d l x y Nd I N _ IH]; intros x' B.
  - inversion B. reflexivity.
  - inversion B as [|? ? ? u ? _ J Ru|? ? ? ? ? ? ? _ J Nx Ru]; subst; pose proof (U _ _ _ _ Nd I J) as E; [|discriminate]. injection E as ->. auto.
  - inversion B as [|? ? ? u ? _ J Ru|? ? ? ? ? ? ? _ J Nx Ru]; subst; pose proof (U _ _ _ _ Nd I J) as E; [discriminate|]. injection E as ->. rewrite N in Nx. injection Nx as ->. auto.
Qed.
Lemma within_both R p d d' : within R p d d' -> forall x x', reaches d p x -> reaches d' p x' -> within (fun y y' => y = x /\ y' = x' /\ R y y') p d d'.
Proof.
  induction 1 as [d d' H|k p a y y' b N _ IH|k p a l1 y y' l2 b N _ IH]; intros x x' A B.
  - inversion A; subst. inversion B; subst. constructor. auto.
  - inversion A as [|? ? ? u ? _ I Ru|? ? ? ? ? ? ? _ I Nx Ru]; subst; apply alone in I; try assumption; [|discriminate]. inversion B as [|? ? ? u' ? _ I' Ru'|? ? ? ? ? ? ? _ I' Nx' Ru']; subst; apply alone in I'; try assumption; [|discriminate]. injection I as ->. injection I' as ->. constructor; auto.
  - inversion A as [|? ? ? u ? _ I Ru|? ? ? ? ? ? ? _ I Nx Ru]; subst; [inversion Ru|]. inversion B as [|? ? ? u' ? _ I' Ru'|? ? ? ? ? ? ? _ I' Nx' Ru']; subst; [inversion Ru'|]. apply alone in I, I'; try assumption. injection I as ->. injection I' as ->.
    rewrite nth_error_app2, Nat.sub_diag in Nx, Nx' by lia. injection Nx as ->. injection Nx' as ->. constructor; auto.
Qed.
Lemma within_impl (R R' : list (str * pyv) -> list (str * pyv) -> Prop) p d d' : (forall x x', R x x' -> R' x x') -> within R p d d' -> within R' p d d'.
Proof. intros H. induction 1; constructor; auto. Qed.
Lemma within_stay (R : list (str * pyv) -> list (str * pyv) -> Prop) d p x : reaches d p x -> R x x -> within R p d d.
Proof.
  intros H Q. induction H as [d|k p d x y Nd I _ IH|k j p d l x y Nd I N _ IH]; [constructor; exact Q| |].
  - apply in_split in I as (a & b & ->). rewrite map_app in Nd. cbn [map fst] in Nd. apply NoDup_remove_2 in Nd. rewrite <- map_app in Nd. constructor; auto.
  - apply in_split in I as (a & b & ->). rewrite map_app in Nd. cbn [map fst] in Nd. apply NoDup_remove_2 in Nd. rewrite <- map_app in Nd. apply nth_error_split in N as (l1 & l2 & -> & <-). constructor; auto.
Qed.
Lemma edited_within p o d d' : edited p o d d' -> within (changed o) p d d'.
Proof. induction 1; constructor; auto. Qed.
Lemma within_reach R p d d' : within R p d d' -> forall x, reaches d p x -> exists x', R x x' /\ reaches d' p x'.
Proof.
  induction 1 as [d d' H|k p a y y' b N _ IH|k p a l1 y y' l2 b N _ IH]; intros x A.
  - inversion A; subst. exists d'. split; [exact H|constructor].
  - inversion A as [|? ? ? u ? Nd I Ru|? ? ? ? ? ? ? _ I Nx Ru]; subst; apply alone in I; try assumption; [|discriminate]. injection I as ->. destruct (IH _ Ru) as (x' & Q & R'). exists x'. split; [exact Q|]. econstructor; [|apply in_app_iff; right; left; reflexivity|exact R']. rewrite map_app in *. exact Nd.
  - inversion A as [|? ? ? u ? Nd I Ru|? ? ? ? ? ? ? Nd I Nx Ru]; subst; [inversion Ru|]. apply alone in I; [|assumption]. injection I as ->. rewrite nth_error_app2, Nat.sub_diag in Nx by lia. injection Nx as ->. destruct (IH _ Ru) as (x' & Q & R'). exists x'. split; [exact Q|].
    eapply re_elem; [|apply in_app_iff; right; left; reflexivity| |exact R']; [rewrite map_app in *; exact Nd|]. rewrite nth_error_app2, Nat.sub_diag by lia. reflexivity.
Qed.
Lemma within_trans R1 R2 p d d1 d2 x : reaches d p x -> within R1 p d d1 -> within R2 p d1 d2 -> within (fun y y' => exists z, R1 y z /\ R2 z y') p d d2.
Proof.
  intros A H. revert d2 x A. induction H as [d d' H|k p a y y' b N _ IH|k p a l1 y y' l2 b N _ IH]; intros d2 x A W.
  - inversion W; subst. constructor. eauto.
  - inversion A as [|? ? ? u ? Nd I Ru|? ? ? ? ? ? ? _ I Nx Ru]; subst; apply alone in I; try assumption; [|discriminate]. injection I as ->.
    inversion W as [|? ? a2 z z' b2 N2 W2 E|? ? a2 m1 z z' m2 b2 N2 W2 E]; subst.
    + assert (Q : a2 = a /\ b2 = b /\ z = y').
      { assert (G : forall a a2 : list (str * pyv), ~ In k (map fst (a ++ b)) -> ~ In k (map fst (a2 ++ b2)) -> a2 ++ (k, PDict z) :: b2 = a ++ (k, PDict y') :: b -> a2 = a /\ b2 = b /\ z = y').
        { clear. induction a as [|e a IH]; intros [|e2 a2] N N2 E; cbn [app] in E.
          - injection E as -> ->. auto.
          - injection E as -> E. exfalso. apply N2. left. reflexivity.
          - injection E as <- E. exfalso. apply N. left. reflexivity.
          - injection E as -> E. destruct (IH a2) as (-> & -> & ->); auto; intros X; [apply N|apply N2]; right; exact X. }
        apply G; assumption. }
      destruct Q as (-> & -> & ->). constructor; [exact N|]. eapply IH; eassumption.
    + inversion Ru.
  - inversion A as [|? ? ? u ? Nd I Ru|? ? ? ? ? ? ? Nd I Nx Ru]; subst; [inversion Ru|]. apply alone in I; [|assumption]. injection I as ->. rewrite nth_error_app2, Nat.sub_diag in Nx by lia. injection Nx as ->.
    inversion W as [|? ? a2 z z' b2 N2 W2 E|? ? a2 m1 z z' m2 b2 N2 W2 E]; subst; [inversion W2|].
    assert (Q : a2 = a /\ b2 = b /\ m1 ++ PDict z :: m2 = l1 ++ PDict y' :: l2).
    { match goal with Q : a2 ++ _ = a ++ _ |- _ => revert Q end. clear -N N2. revert a2 N2. induction a as [|e a IH]; intros [|e2 a2] N2 E; cbn [app] in E.
      - injection E as E1 E2. auto.
      - injection E as -> E. exfalso. apply N2. left. reflexivity.
      - injection E as <- E. exfalso. apply N. left. reflexivity.
      - injection E as -> E. destruct (IH ltac:(intros X; apply N; right; exact X) a2 ltac:(intros X; apply N2; right; exact X) E) as (-> & -> & ->). auto. }
    destruct Q as (-> & -> & Ql). match goal with Q : List.length m1 = List.length l1 |- _ => rename Q into Le end. assert (Z : nth_error (m1 ++ PDict z :: m2) (List.length m1) = nth_error (l1 ++ PDict y' :: l2) (List.length l1)) by (rewrite Ql, Le; reflexivity).
    rewrite !nth_error_app2, !Nat.sub_diag in Z by lia. injection Z as ->. assert (m1 = l1 /\ m2 = l2) as [-> ->].
    { clear -Ql Le. revert m1 Ql Le. induction l1 as [|e l1 IH]; intros [|e2 m1] E L; try discriminate; cbn [app] in E; [injection E; auto|]. injection E as -> E. injection L as L. destruct (IH m1 E L) as [-> ->]. auto. }
    constructor; [exact N|]. eapply IH; eassumption.
Qed.

(** * What a key of a container leads to *)
Lemma cont_pairs t r : unwrap_cont t = Some r -> map fst r = c_dict t /\ forall k u, In (k, u) r -> uval t k = Some u.
Proof.
  rewrite unwrap_cont_eq. revert r. induction (c_dict t) as [|k l IH]; intros r H; cbn [map seqopt] in H; [injection H as <-; split; [reflexivity|intros ? ? []]|].
  destruct (uval t k) as [u|] eqn:U; [|discriminate]. cbn [option_map] in H. destruct (seqopt _) as [r'|] eqn:S; [|discriminate]. injection H as <-. destruct (IH r' eq_refl) as [A B]. cbn [map fst]. rewrite A. split; [reflexivity|].
  intros k' u' [I|I]; [injection I as <- <-; exact U|auto].
Qed.
Lemma getitem_uval t k u : uval t k = Some u -> exists n, getitem t k = Ok n /\ node_unwrap n = Some u.
Proof.
  unfold uval, getitem. destruct (map_get k (c_map t)) as [[i|l]|]; [| |discriminate].
  - destruct (nth_error (c_body t) i) as [[b it]|]; [|discriminate]. intros U. destruct it; (eexists; split; [reflexivity|]); cbn [node_unwrap]; try exact U.
  - destruct (proxy _ t l) as [ic|]; [|discriminate]. intros U. cbn [rbind]. exists (ATable ic). auto.
Qed.
Lemma getitem_none t k : consistent t -> absent t k -> getitem t k = Err (NonExistentKeyE k).
Proof. intros C A. unfold getitem. destruct (map_get k (c_map t)) eqn:E; [|reflexivity]. exfalso. apply A, (consistent_dict t k C). congruence. Qed.
Lemma unwrap_at c k i b it r : consistent c -> map_get k (c_map c) = Some (One i) -> nth_error (c_body c) i = Some (b, it) -> unwrap_cont c = Some r ->
  NoDup (map fst r) /\ exists v, unwrap it = Some v /\ In (k, v) r.
Proof.
  intros C M N U. destruct (cont_pairs _ _ U) as [A B]. rewrite A. split; [destruct C as (_ & _ & _ & Nd & _); exact Nd|]. assert (I : In k (map fst r)) by (rewrite A; apply (consistent_dict c k C); congruence).
  apply in_map_iff in I as ([k0 v] & E & I). cbn [fst] in E. subst k0. exists v. split; [|exact I]. specialize (B _ _ I). unfold uval in B. rewrite M, N in B. exact B.
Qed.
Lemma seqopt_nth {A B} (f : A -> option B) l r j x : seqopt (map f l) = Some r -> nth_error l j = Some x -> exists y, f x = Some y /\ nth_error r j = Some y.
Proof.
  revert r j. induction l as [|a l IH]; intros r j H N; [destruct j; discriminate|]. cbn [map seqopt] in H. destruct (f a) as [y|] eqn:F; [|discriminate]. destruct (seqopt (map f l)) as [r'|]; [|discriminate]. injection H as <-.
  destruct j as [|j]; [injection N as <-; eauto|]. exact (IH r' j eq_refl N).
Qed.
Lemma table_reaches p : forall m c m' t d, ok_cont c -> table_at m c p = Some (m', t) -> unwrap_cont c = Some d -> exists r, unwrap_cont t = Some r /\ reaches d p r.
Proof.
  assert (G : forall n p m c m' t d, List.length p <= n -> ok_cont c -> table_at m c p = Some (m', t) -> unwrap_cont c = Some d -> exists r, unwrap_cont t = Some r /\ reaches d p r); [|intros; eapply (G (List.length p)); eauto].
  induction n as [|n IH]; intros q m c m' t d Ln O T U; (destruct q as [|[k|i] q]; [injection T as <- <-; exists d; split; [exact U|constructor]| |discriminate T]); [inversion Ln|]. cbn [List.length] in Ln. cbn [table_at] in T. destruct (ok_parts c O) as (C & _ & F).
  destruct (map_get k (c_map c)) as [[i|]|] eqn:M; try discriminate. destruct (nth_error (c_body c) i) as [[bk it]|] eqn:N; try discriminate. destruct (unwrap_at c k i bk it d C M N U) as (Nd & v & Uv & I).
  assert (Oi : ok_item it) by (rewrite Forall_forall in F; exact (F _ (nth_error_In _ _ N))).
  assert (Ca : (exists tc tm, it = ITable tc tm /\ table_at (Some tm) tc q = Some (m', t)) \/ (exists l a b e j q' tc tm, it = IAoT l a b e /\ q = Index j :: q' /\ nth_error l j = Some (tc, tm) /\ table_at (Some tm) tc q' = Some (m', t))).
  { destruct bk as [sk|]; destruct it as [ | | | | | |tc tm|l a b e]; try discriminate.
    - destruct (k_dotted sk); [discriminate|]. eauto.
    - destruct q as [|[?|j] q]; try discriminate. destruct (nth_error l j) as [[tc tm]|] eqn:Nj; [|discriminate]. right. eauto 12.
    - destruct q as [|[?|j] q]; try discriminate. destruct (nth_error l j) as [[tc tm]|] eqn:Nj; [|discriminate]. right. eauto 12. }
  destruct Ca as [(tc & tm & -> & T')|(l & a & b & e & j & q' & tc & tm & -> & -> & Nj & T')].
  - rewrite unwrap_table in Uv. destruct (unwrap_cont tc) as [x|] eqn:Ux; [|discriminate]. injection Uv as <-. inversion Oi as [? ? Ot| |? Ot]; subst; [|discriminate Ot]. destruct (IH q _ tc m' t x ltac:(lia) Ot T' Ux) as (r & Ur & R). exists r. split; [exact Ur|]. econstructor; eauto.
  - rewrite unwrap_aot in Uv. destruct (seqopt _) as [vs|] eqn:Sq; [|discriminate]. injection Uv as <-. destruct (seqopt_nth _ _ _ _ _ Sq Nj) as (y & Fy & Ny). cbn [fst] in Fy. destruct (unwrap_cont tc) as [x|] eqn:Ux; [|discriminate]. injection Fy as <-.
    inversion Oi as [|? ? ? ? Ot|? Ot]; subst; [|discriminate Ot]. rewrite Forall_forall in Ot. pose proof (Ot _ (nth_error_In _ _ Nj)) as Otc. cbn [fst] in Otc. cbn [List.length] in Ln. destruct (IH q' _ tc m' t x ltac:(lia) Otc T' Ux) as (r & Ur & R). exists r. split; [exact Ur|]. eapply re_elem; eauto.
Qed.
Lemma nth_set_here {A} (l : list A) i x y : nth_error l i = Some x -> nth_error (list_set i y l) i = Some y.
Proof. intros H. rewrite nth_list_set, Nat.eqb_refl. assert (i < List.length l) by (apply nth_error_Some; congruence). destruct (Nat.ltb_spec i (List.length l)); [reflexivity|lia]. Qed.
Lemma edit_table p : forall m c m' t o c', table_at m c p = Some (m', t) -> edit_at m c p o = Ok c' -> exists t', apply_op m' t o = Ok t' /\ table_at m c' p = Some (m', t').
Proof.
  assert (G : forall n p m c m' t o c', List.length p <= n -> table_at m c p = Some (m', t) -> edit_at m c p o = Ok c' -> exists t', apply_op m' t o = Ok t' /\ table_at m c' p = Some (m', t')); [|intros; eapply (G (List.length p)); eauto].
  induction n as [|n IH]; intros q m c m' t o c' Ln T E; (destruct q as [|[k|i] q]; [injection T as <- <-; exists c'; split; [exact E|reflexivity]| |discriminate T]); [inversion Ln|]. cbn [List.length] in Ln. cbn [table_at edit_at] in T, E |- *.
  destruct (map_get k (c_map c)) as [[i|]|] eqn:M; try discriminate. destruct (nth_error (c_body c) i) as [[bk it]|] eqn:N; try discriminate. destruct c as [body mp pa tks dd]. cbn [c_map c_body set_body] in *.
  destruct it as [ | | | | | |tc tm|l a b e]; try (destruct bk; discriminate).
  - destruct bk as [sk|]; [|discriminate]. destruct (k_dotted sk) eqn:Kd; [discriminate|]. destruct (edit_at (Some tm) tc q o) as [tc'|] eqn:E1; [|discriminate]. cbn [rbind] in E. injection E as <-. destruct (IH q _ tc m' t o tc' ltac:(lia) T E1) as (t' & A & B). exists t'. split; [exact A|].
    cbn [c_map c_body]. rewrite M, (nth_set_here _ _ _ _ N), Kd. exact B.
  - assert (X : exists j q' tc tm tc', q = Index j :: q' /\ nth_error l j = Some (tc, tm) /\ table_at (Some tm) tc q' = Some (m', t) /\ edit_at (Some tm) tc q' o = Ok tc' /\ c' = Cont (list_set i (bk, IAoT (list_set j (tc', tm) l) a b e) body) mp pa tks dd).
    { destruct bk as [sk|]; (destruct q as [|[?|j] q]; try discriminate; destruct (nth_error l j) as [[tc tm]|] eqn:Nj; [|discriminate]; destruct (edit_at (Some tm) tc q o) as [tc'|] eqn:E1; [|discriminate]; cbn [rbind] in E; injection E as <-; exists j, q, tc, tm, tc'; auto). }
    destruct X as (j & q' & tc & tm & tc' & -> & Nj & T' & E1 & ->). cbn [List.length] in Ln. destruct (IH q' _ tc m' t o tc' ltac:(lia) T' E1) as (t' & A & B). exists t'. split; [exact A|].
    cbn [c_map c_body]. rewrite M, (nth_set_here _ _ _ _ N), (nth_set_here _ _ _ _ Nj). destruct bk; exact B.
Qed.

(** * The table seen from the document it stands for *)
Lemma seen c d p m t : ok_cont c -> neat c d -> table_at None c p = Some (m, t) ->
  consistent t /\ exists r x, unwrap_cont t = Some r /\ pyeq (PDict r) (PDict x) /\ reaches d p x.
Proof.
  intros O N T. destruct (ok_parts t (table_at_ok p None c m t O T)) as (C & _). split; [exact C|]. destruct (neat_unwrap c d O N) as (d1 & U & Q). destruct (table_reaches p None c m t d1 O T U) as (r & Ur & R). destruct (reaches_pyeq _ _ _ R d Q) as (x & R' & Q'). exists r, x. auto.
Qed.
Lemma seen_keys t r x : consistent t -> unwrap_cont t = Some r -> pyeq (PDict r) (PDict x) -> NoDup (map fst x) /\ forall k, In k (c_dict t) <-> In k (map fst x).
Proof.
  intros C U Q. destruct (cont_pairs _ _ U) as [A _]. destruct (pyeq_pairs _ _ Q) as [_ P]. rewrite A in P. destruct C as (_ & _ & _ & Nd & _). split; [exact (Permutation_NoDup P Nd)|]. intros k. split; apply Permutation_in; [exact P|apply Permutation_sym, P].
Qed.
(** [t[k]] is the value under [k]. *)
Lemma seen_value t r x k : consistent t -> unwrap_cont t = Some r -> pyeq (PDict r) (PDict x) -> In k (c_dict t) ->
  exists n u, getitem t k = Ok n /\ node_unwrap n = Some u /\ forall a v b, x = a ++ (k, v) :: b -> ~ In k (map fst (a ++ b)) -> pyeq u v.
Proof.
  intros C U Q I. destruct (cont_pairs _ _ U) as [A B]. rewrite <- A in I. apply in_map_iff in I as ([k0 u] & E & I). cbn [fst] in E. subst k0. destruct (getitem_uval t k u (B _ _ I)) as (n & G & Un). exists n, u. split; [exact G|]. split; [exact Un|].
  intros a v b -> N. destruct (proj1 (pyeq_pairs _ _ Q) _ _ I) as (v' & J & Qv). apply alone in J; [|exact N]. subst v'. exact Qv.
Qed.
Lemma one_step c d p m t o : ok_cont c -> neat c d -> table_at None c p = Some (m, t) -> possible_op p (headless m) t o ->
  exists c' d' t', edit_at None c p o = Ok c' /\ ok_cont c' /\ neat c' d' /\ within (changed o) p d d' /\ table_at None c' p = Some (m, t') /\ apply_op m t o = Ok t'.
Proof.
  intros O N T P. assert (Po : possible c [(p, o)]) by (split; [eauto|intros; exact I]). destruct (possible_legal _ _ _ O N Po) as [Le _]. destruct (edit_neat c d p o O N Le) as (c' & d' & E & O' & N' & Ed). destruct (edit_table p None c m t o c' T E) as (t' & A & T'). exists c', d', t'. repeat (split; [assumption|]). split; [apply edited_within, Ed|]. auto.
Qed.
Lemma finish (R R' : list (str * pyv) -> list (str * pyv) -> Prop) p d d' x x' : within R p d d' -> reaches d p x -> reaches d' p x' -> (R x x' -> R' x x') -> within R' p d d'.
Proof. intros W A B H. eapply within_impl; [|exact (within_both _ _ _ _ W x x' A B)]. cbn beta. intros y y' (-> & -> & Q). auto. Qed.
Lemma del_keys t k t' : remove t k = Ok t' -> c_dict t' = dict_del k (c_dict t).
Proof. destruct t as [b m p tks dd]. unfold remove. destruct (map_get k m); [|discriminate]. intros H. injection H as <-. reflexivity. Qed.
Lemma dict_del_head k l : NoDup (k :: l) -> dict_del k (k :: l) = l.
Proof.
  intros H. inversion H as [|? ? N Nd]; subst. unfold dict_del. cbn [filter]. rewrite str_eqb_refl. cbn [negb]. clear -N. induction l as [|y l IH]; [reflexivity|]. cbn [filter]. destruct (str_eqb k y) eqn:E.
  - apply str_eqb_eq in E. subst y. exfalso. apply N. left. reflexivity.
  - cbn [negb]. rewrite IH; [reflexivity|]. intros X. apply N. right. exact X.
Qed.
Lemma removed (k : str) x x' : changed (EDel k) x x' -> exists a v b, x = a ++ (k, v) :: b /\ x' = a ++ b /\ ~ In k (map fst (a ++ b)).
Proof. inversion 1; subst; eauto 6. Qed.
(** [popitem] *)
Lemma popitem_step c d p m t : ok_cont c -> neat c d -> table_at None c p = Some (m, t) -> c_dict t <> [] -> (headless m = true -> List.length (c_dict t) <> 1) ->
  exists n c' d' t' k v, popitem c p = Ok (RPair k n, c') /\ ok_cont c' /\ neat c' d' /\ table_at None c' p = Some (m, t') /\ c_dict t = k :: c_dict t' /\ within (fun x x' => method_means MPopItem x (PPair k v) x') p d d' /\ returned (RPair k n) (PPair k v).
Proof.
  intros O N T Ne Hl. destruct (seen c d p m t O N T) as (C & r & x & U & Q & R). destruct (c_dict t) as [|k l] eqn:D; [congruence|]. clear Ne. pose proof C as (_ & _ & _ & Nd & _). rewrite D in Nd.
  destruct (seen_value t r x k C U Q ltac:(rewrite D; left; reflexivity)) as (n & u & G & Un & V).
  destruct (one_step c d p m t (EDel k) O N T) as (c' & d' & t' & E & O' & N' & W & T' & A).
  { apply po_del; [rewrite D; left; reflexivity|]. intros H. destruct l as [|k2 l]; [destruct (Hl H); reflexivity|]. exists k2. rewrite D. split; [right; left; reflexivity|]. intros ->. inversion Nd as [|? ? X _]; subst. apply X. left. reflexivity. }
  destruct (within_reach _ _ _ _ W x R) as (x' & Ch & R'). destruct (removed _ _ _ Ch) as (a & v & b & Ex & Ex' & Nk). exists n, c', d', t', k, v. unfold popitem, table_of. rewrite T. cbn [rbind]. rewrite D, G. cbn [rbind]. rewrite E. cbn [rbind].
  repeat (split; [reflexivity || assumption|]). split; [|split].
  - cbn [apply_op] in A. rewrite (del_keys _ _ _ A), D, dict_del_head by exact Nd. reflexivity.
  - eapply finish; [exact W|exact R|exact R'|]. intros _. rewrite Ex, Ex'. constructor. exact Nk.
  - econstructor; [exact Un|]. eapply V; eauto.
Qed.
Lemma clear_steps p m n : forall c d t, ok_cont c -> neat c d -> table_at None c p = Some (m, t) -> headless m = false -> List.length (c_dict t) < n ->
  exists c' d' t', clear_loop n c p = Ok c' /\ ok_cont c' /\ neat c' d' /\ table_at None c' p = Some (m, t') /\ c_dict t' = [] /\ within (fun _ _ => True) p d d'.
Proof.
  induction n as [|n IH]; intros c d t O N T Hl Ln; [lia|]. destruct (c_dict t) as [|k l] eqn:D.
  - exists c, d, t. cbn [clear_loop]. unfold popitem, table_of. rewrite T. cbn [rbind]. rewrite D. cbn [is_key_error]. repeat (split; [reflexivity || assumption|]). destruct (seen c d p m t O N T) as (_ & r & x & _ & _ & R). eapply within_stay; [exact R|exact I].
  - destruct (popitem_step c d p m t O N T) as (n0 & c1 & d1 & t1 & k1 & v & E & O1 & N1 & T1 & Dk & W & _); [rewrite D; discriminate|intros X; rewrite Hl in X; discriminate|]. rewrite D in Dk. injection Dk as <- Dk.
    destruct (IH c1 d1 t1 O1 N1 T1 Hl) as (c' & d' & t' & E' & O' & N' & T' & D' & W'); [rewrite <- Dk; cbn [List.length] in Ln; lia|]. exists c', d', t'. cbn [clear_loop]. rewrite E. repeat (split; [assumption|]).
    destruct (seen c d p m t O N T) as (_ & r & x & _ & _ & R). eapply within_impl; [|exact (within_trans _ _ _ _ _ _ _ R W W')]. trivial.
Qed.
Lemma update_steps p kvs : forall c d m t, ok_cont c -> neat c d -> table_at None c p = Some (m, t) -> possible c (map (fun kv => (p, ESet (fst kv) (snd kv))) kvs) ->
  exists c' d', update c p kvs = Ok c' /\ ok_cont c' /\ neat c' d' /\ within (updated kvs) p d d'.
Proof.
  induction kvs as [|[k v] kvs IH]; intros c d m t O N T P; destruct (seen c d p m t O N T) as (_ & r & x & _ & _ & R).
  - exists c, d. split; [reflexivity|]. split; [exact O|]. split; [exact N|]. eapply within_stay; [exact R|constructor].
  - cbn [map fst snd possible] in P. destruct P as [(m2 & t2 & T2 & Po) Nx]. rewrite T in T2. injection T2 as <- <-. destruct (one_step c d p m t (ESet k v) O N T Po) as (c1 & d1 & t1 & E & O1 & N1 & W & T1 & _). destruct (IH c1 d1 m t1 O1 N1 T1 (Nx _ E)) as (c' & d' & E' & O' & N' & W').
    exists c', d'. cbn [update]. rewrite E. split; [exact E'|]. split; [exact O'|]. split; [exact N'|]. eapply within_impl; [|exact (within_trans _ _ _ _ _ _ _ R W W')]. intros y y' (z & A & B). econstructor; eauto.
Qed.
Lemma split_key (x : list (str * pyv)) k : NoDup (map fst x) -> In k (map fst x) -> exists a v b, x = a ++ (k, v) :: b /\ ~ In k (map fst (a ++ b)).
Proof.
  intros Nd I. apply in_map_iff in I as ([k0 v] & E & I). cbn [fst] in E. subst k0. apply in_split in I as (a & b & ->). exists a, v, b. split; [reflexivity|]. rewrite map_app in Nd. cbn [map fst] in Nd. apply NoDup_remove_2 in Nd. rewrite map_app. exact Nd.
Qed.
Theorem method_neat c d p o m t : ok_cont c -> neat c d -> table_at None c p = Some (m, t) -> method_ok c p (headless m) t o ->
  exists r c' d' pr, method c p o = Ok (r, c') /\ ok_cont c' /\ neat c' d' /\ within (fun x x' => method_means o x pr x') p d d' /\ returned r pr.
Proof.
  intros O N T Ok. destruct (seen c d p m t O N T) as (C & r & x & U & Q & R). destruct (seen_keys t r x C U Q) as [Nx Kx]. unfold method. unfold table_of at 1. rewrite T. cbn [rbind]. destruct o as [k dv| | |kvs|k v|o]; cbn [method_ok] in Ok.
  - destruct Ok as [[I Hl]|[Ab Dv]].
    + destruct (seen_value t r x k C U Q I) as (n & u & G & Un & V). destruct (one_step c d p m t (EDel k) O N T (po_del _ _ _ _ I Hl)) as (c' & d' & t' & E & O' & N' & W & _). destruct (within_reach _ _ _ _ W x R) as (x' & Ch & R'). destruct (removed _ _ _ Ch) as (a & v & b & Ex & Ex' & Nk).
      rewrite G, E. cbn [rbind]. exists (RNode n), c', d', (PVal v). repeat (split; [reflexivity || assumption|]). split.
      * eapply finish; [exact W|exact R|exact R'|]. intros _. rewrite Ex, Ex'. constructor. exact Nk.
      * econstructor; [exact Un|]. eapply V; eauto.
    + rewrite (getitem_none t k C Ab). cbn [is_key_error]. destruct dv as [v|]; [|congruence]. exists (RGiven v), c, d, (PVal v). repeat (split; [reflexivity || assumption|]). split; [|constructor]. eapply within_stay; [exact R|]. constructor. intros X. apply Ab, Kx, X.
  - destruct Ok as [Ne Hl]. destruct (popitem_step c d p m t O N T Ne Hl) as (n & c' & d' & t' & k & v & E & O' & N' & _ & _ & W & Re). exists (RPair k n), c', d', (PPair k v). auto.
  - destruct (clear_steps p m (S (List.length (c_dict t))) c d t O N T Ok ltac:(lia)) as (c' & d' & t' & E & O' & N' & T' & D' & W). rewrite E. cbn [rbind]. exists RNone, c', d', PNone. repeat (split; [reflexivity || assumption|]). split; [|constructor].
    destruct (seen c' d' p m t' O' N' T') as (C' & r' & x' & U' & Q' & R'). destruct (seen_keys t' r' x' C' U' Q') as [_ Kx']. eapply finish; [exact W|exact R|exact R'|]. intros _. destruct x' as [|[k v] x']; [constructor|]. exfalso. specialize (Kx' k). rewrite D' in Kx'. apply Kx'. left. reflexivity.
  - destruct (update_steps p kvs c d m t O N T Ok) as (c' & d' & E & O' & N' & W). rewrite E. cbn [rbind]. exists RNone, c', d', PNone. repeat (split; [reflexivity || assumption|]). split; [|constructor]. eapply within_impl; [|exact W]. intros y y'. apply mm_update.
  - destruct (in_dec (list_eq_dec N.eq_dec) k (c_dict t)) as [I|Ab].
    + destruct (seen_value t r x k C U Q I) as (n & u & G & Un & V). rewrite G. cbn [rbind]. unfold table_of. rewrite T. cbn [rbind]. rewrite G. cbn [rbind]. destruct (split_key x k Nx (proj1 (Kx k) I)) as (a & v' & b & Ex & Nk). exists (RNode n), c, d, (PVal v'). repeat (split; [reflexivity || assumption|]). split.
      * eapply within_stay; [exact R|]. rewrite Ex. constructor. exact Nk.
      * econstructor; [exact Un|]. eapply V; eauto.
    + rewrite (getitem_none t k C Ab). cbn [is_key_error]. destruct (one_step c d p m t (ESet k v) O N T (Ok Ab)) as (c' & d' & t' & E & O' & N' & W & T' & _). destruct (seen c' d' p m t' O' N' T') as (C' & r' & x' & U' & Q' & R'). destruct (seen_keys t' r' x' C' U' Q') as [_ Kx'].
      destruct (within_reach _ _ _ _ W x R) as (x2 & Ch & R2). rewrite E. cbn [rbind]. unfold table_of. rewrite T'. cbn [rbind].
      assert (Ex : exists a v' b, ~ In k (map fst (a ++ b)) /\ pyeq v v' /\ x = a ++ b /\ x2 = a ++ (k, v') :: b).
      { inversion Ch as [? ? v' a b Nk Pv|? ? v' w a b a' b' Nk Pv Eab| | | | | | | | |]; subst; [eauto 8|]. exfalso. apply Ab, Kx. rewrite map_app. apply in_app_iff. right. left. reflexivity. }
      destruct Ex as (a & v' & b & Nk & Pv & Ex & Ex2).
      pose proof (reaches_one _ _ _ R' _ R2) as E2. rewrite Ex2 in E2. symmetry in E2. assert (I : In k (c_dict t')) by (apply Kx'; rewrite E2, map_app; apply in_app_iff; right; left; reflexivity).
      destruct (seen_value t' r' x' k C' U' Q' I) as (n & u & G & Un & V). rewrite G. cbn [rbind]. exists (RNode n), c', d', (PVal v'). repeat (split; [reflexivity || assumption|]). split.
      * eapply finish; [exact W|exact R|exact R'|]. intros _. rewrite Ex, E2. constructor; assumption.
      * econstructor; [exact Un|]. eapply V; eauto.
  - destruct (one_step c d p m t o O N T Ok) as (c' & d' & t' & E & O' & N' & W & _). rewrite E. cbn [rbind]. exists RNone, c', d', PNone. repeat (split; [reflexivity || assumption|]). split; [|constructor]. eapply within_impl; [|exact W]. intros y y'. apply mm_edit.
Qed.
Theorem methods_neat ms : forall c d, ok_cont c -> neat c d -> methods_ok c ms ->
  exists rs c' d' prs, methods c ms = Ok (rs, c') /\ ok_cont c' /\ neat c' d' /\ methods_mean ms d prs d' /\ Forall2 returned rs prs.
Proof.
  induction ms as [|[p o] ms IH]; intros c d O N H; [exists [], c, d, []; repeat (split; [reflexivity || assumption|]); split; constructor|]. destruct H as [(m & t & T & Ok) Nx].
  destruct (method_neat c d p o m t O N T Ok) as (r & c1 & d1 & pr & E & O1 & N1 & W & Re). destruct (IH c1 d1 O1 N1 (Nx _ _ E)) as (rs & c' & d' & prs & E' & O' & N' & M & Rs).
  exists (r :: rs), c', d', (pr :: prs). cbn [methods]. rewrite E. cbn [rbind snd fst]. rewrite E'. cbn [rbind snd fst]. repeat (split; [reflexivity || assumption|]). split; [econstructor; eauto|constructor; assumption].
Qed.
