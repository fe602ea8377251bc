(** Fuel: the bounds put on the recursion of the model are never reached (C02). *)
From Verif Require Import Base Source Utils Items Container Arrays Parser Lemmas Reader Wf.
From Coq Require Import ZifyBool ZifyNat ZifyN.
Open Scope nat_scope.

(** ** Containers: the recursion of [append] is bounded by the nesting of tables. *)
Fixpoint ih (i : item) : nat :=
  match i with ITable c _ => S (ch c) | _ => 0 end
with ch (c : container) : nat :=
  match c with Cont body _ _ _ _ => fold_right (fun (kv : option skey * item) n => match kv with (_, v) => Nat.max (ih v) n end) 0 body end.

Definition bh (h : nat) (body : list (option skey * item)) : Prop := Forall (fun kv => ih (snd kv) <= h) body.
Lemma ch_bh c h : ch c <= h <-> bh h (c_body c).
Proof.
  destruct c as [body m p t d]. cbn [c_body ch]. unfold bh. induction body as [|[k v] b IH]; cbn [fold_right].
  - split; [constructor|lia].
  - split.
    + intros H. constructor; [cbn; lia|]. apply IH. lia.
    + intros H. inversion H; subst. cbn in *. apply IH in H3. lia.
Qed.
Definition fine (h : nat) (r : res container) : Prop := match r with Ok c => bh h (c_body c) | Err e => e <> FuelE end.
Lemma fine_bind {A} (r : res A) h (f : A -> res container) : (r <> Err FuelE) -> (forall a, r = Ok a -> fine h (f a)) -> fine h (rbind r f).
Proof. destruct r; cbn; intros H K; [apply K; reflexivity|congruence]. Qed.
Lemma fine_bindc r h (f : container -> res container) : fine h r -> (forall a, bh h (c_body a) -> fine h (f a)) -> fine h (rbind r f).
Proof. destruct r; cbn; intros H K; [apply K; exact H|exact H]. Qed.
Lemma fine_noerr h r : fine h r -> r <> Err FuelE.
Proof. destruct r; cbn; congruence. Qed.
Lemma noerr_bind {A B} (r : res A) (f : A -> res B) : r <> Err FuelE -> (forall a, r = Ok a -> f a <> Err FuelE) -> rbind r f <> Err FuelE.
Proof. destruct r; cbn; [intros _ H; apply H; reflexivity|intros H _ E; apply H; congruence]. Qed.
Lemma fold_inv {A B} (I : B -> Prop) (f : B -> A -> res B) l : forall b,
  I b -> (forall b x, In x l -> I b -> match f b x with Ok b' => I b' | Err e => e <> FuelE end) ->
  match fold_res f l b with Ok b' => I b' | Err e => e <> FuelE end.
Proof.
  induction l as [|x l IH]; intros b Hb Hf; cbn [fold_res]; [exact Hb|].
  pose proof (Hf b x (or_introl eq_refl) Hb) as H. destruct (f b x); [|exact H].
  apply IH; [exact H|]. intros; apply Hf; [right|]; assumption.
Qed.

Lemma ih_set_trivia t i : ih (set_trivia t i) = ih i.
Proof. destruct i; reflexivity. Qed.
Lemma inval_h : (forall i, ih (inval_item i) = ih i) /\ (forall c, ch (inval_cont c) = ch c).
Proof.
  apply item_cont_ind; intros; try reflexivity.
  - cbn [inval_item ih]. rewrite H. reflexivity.
  - cbn [inval_cont ch].
    assert (G : forall mm, fold_right (fun (kv : option skey * item) n => match kv with (_, v) => Nat.max (ih v) n end) 0
      (map (fun kv : option skey * item => let (k, v) := kv in match k with
        | Some k' => match map_get (k_key k') mm with Some (One _) => (k, inval_item v) | _ => (k, v) end | None => (k, v) end) body)
      = fold_right (fun (kv : option skey * item) n => match kv with (_, v) => Nat.max (ih v) n end) 0 body).
    { intros mm. induction H as [|[k v] b Hv Hb IH]; [reflexivity|]. cbn [map fold_right]. rewrite IH. cbn [snd] in Hv.
      destruct k as [k|]; [|reflexivity]. destruct (map_get _ _) as [[]|]; cbn; rewrite ?Hv; reflexivity. }
    apply G.
Qed.
Lemma ih_inval i : ih (inval_item i) = ih i.
Proof. apply inval_h. Qed.
Lemma ih_set_name k i : ih (set_name k i) = ih i.
Proof. destruct i as [| | | | | |c m|l n p t]; try reflexivity; cbn; [destruct (tm_name m)|destruct n]; reflexivity. Qed.
Lemma ih_aot i l n p t : i = IAoT l n p t -> ih i = 0.
Proof. intros ->. reflexivity. Qed.
Lemma ih_pre_append c k i : ih (pre_append c k i) = ih i.
Proof.
  destruct c as [body m p tks d]. unfold pre_append. destruct i as [| | | | | |tc tm|l n q t]; try reflexivity.
  - destruct (_ && _); [rewrite ih_set_trivia|]; destruct p; rewrite ?ih_inval; reflexivity.
  - destruct (_ && _); [|reflexivity]. destruct (inval_item (IAoT l n q t)) as [| | | | | |tc tm|[|x l'] n' q' t'] eqn:E; try discriminate; try reflexivity.
    destruct (negb _); reflexivity.
Qed.
Lemma ih_add_nl i : ih (add_nl_trail i) = ih i.
Proof. apply ih_set_trivia. Qed.
Lemma ih_copy v o : ih (copy_trivia v o) = ih v.
Proof. destruct v; try reflexivity. Qed.
Lemma bh_app h a b : bh h (a ++ b) <-> bh h a /\ bh h b.
Proof. apply Forall_app. Qed.
Lemma bh_nth h b n x : bh h b -> nth_error b n = Some x -> ih (snd x) <= h.
Proof. intros H E. unfold bh in H. rewrite Forall_forall in H. apply H. eapply nth_error_In; eauto. Qed.
Lemma bh_set h b n x : bh h b -> ih (snd x) <= h -> bh h (list_set n x b).
Proof.
  intros H Hx. revert n. induction H as [|y b Hy Hb IH]; intros [|n]; cbn [list_set]; try constructor; auto; apply IH.
Qed.
Lemma bh_insert h b n x : bh h b -> ih (snd x) <= h -> bh h (list_insert n x b).
Proof.
  intros H Hx. unfold list_insert. rewrite <- (firstn_skipn n b) in H. apply bh_app in H as [H1 H2]. apply bh_app. split; [exact H1|].
  constructor; assumption.
Qed.
Lemma bh_nulls h l : forall b, bh h b -> bh h (fold_left (fun b x => list_set x (None, INull) b) l b).
Proof. induction l as [|x l IH]; intros b H; [exact H|]. cbn [fold_left]. apply IH, bh_set; [exact H|cbn; lia]. Qed.

Ltac nofuel := cbn; congruence.
Lemma raw_append_h h c k i : bh h (c_body c) -> ih i <= h -> fine h (raw_append c k i).
Proof.
  intros Hc Hi. destruct c as [body m p tks d]. cbn [c_body] in Hc. unfold raw_append.
  assert (H : bh h (body ++ [(k, i)])) by (apply bh_app; split; [exact Hc|constructor; [exact Hi|constructor]]).
  destruct k as [k|]; [|exact H]. cbv zeta. apply fine_bind; [|intros; exact H].
  destruct (map_get _ _); [|nofuel]. destruct (nth_error _ _) as [[]|]; [|nofuel]. destruct (is_table _); nofuel.
Qed.
Lemma insert_at_h h c n k i : bh h (c_body c) -> ih i <= h -> fine h (insert_at c n k i).
Proof.
  intros Hc Hi. destruct c as [body m p tks d]. cbn [c_body] in Hc. unfold insert_at.
  destruct (_ || _); [nofuel|]. cbn [fine c_body]. apply bh_insert; [|exact Hi].
  destruct n as [|n]; [exact Hc|]. destruct (nth_error body n) as [[pk prev]|] eqn:E; [|exact Hc].
  destruct (_ || _); [exact Hc|]. apply bh_set; [exact Hc|]. cbn [snd]. rewrite ih_add_nl. exact (bh_nth _ _ _ _ Hc E).
Qed.
Lemma append_end_h h c k i : bh h (c_body c) -> ih i <= h -> fine h (append_end c k i).
Proof.
  intros Hc Hi. unfold append_end. destruct c as [body m p tks d] eqn:Ec. cbn [c_body] in Hc.
  destruct k as [k|]; [|apply raw_append_h; assumption]. destruct (_ && _); [|apply raw_append_h; assumption].
  cbv zeta. destruct (Nat.ltb _ _); [apply insert_at_h; assumption|].
  destruct (nth_error body _) as [[pk prev]|] eqn:E; [|apply raw_append_h; assumption].
  destruct (_ || _); apply raw_append_h; try assumption. cbn [c_body]. apply bh_set; [exact Hc|]. cbn [snd]. rewrite ih_add_nl.
  exact (bh_nth _ _ _ _ Hc E).
Qed.
Lemma remove_h h c k : bh h (c_body c) -> fine h (remove c k).
Proof.
  intros Hc. destruct c as [body m p tks d]. cbn [c_body] in Hc. unfold remove. destruct (map_get _ _); [|nofuel]. cbn [fine c_body]. apply bh_nulls, Hc.
Qed.
Lemma ih_table_push c m : ih (table_push_ws c m) <= Nat.max 1 (ih (ITable c m)).
Proof.
  destruct c as [body cm p tks d]. cbn [table_push_ws ih].
  enough (ch (Cont (body ++ [(None, IWs [chLF] false)]) cm p tks d) <= ch (Cont body cm p tks d)) by lia.
  apply ch_bh. cbn [c_body]. apply bh_app. split; [apply (ch_bh (Cont body cm p tks d)); lia|]. constructor; [cbn; lia|constructor].
Qed.
Lemma ih_push c m : ih (table_push_ws c m) <= ih (ITable c m).
Proof. pose proof (ih_table_push c m). cbn [ih] in *. lia. Qed.
Lemma dotted_h parts sep it : ih it = 0 -> ch (dotted_table parts sep it) <= List.length parts.
Proof.
  intros Hi. induction parts as [|a l IH]; [cbn; lia|]. destruct l as [|b l]; [cbn; lia|].
  change (ch (singleton (set_dotted a) (ITable (dotted_table (b :: l) sep it) (super_meta (Some (k_key a))))) <= S (List.length (b :: l))).
  generalize dependent (dotted_table (b :: l) sep it). intros x Hx. cbn [singleton ch fold_right ih]. lia.
Qed.

Definition not_multi (k : option key) : Prop := match k with Some (KDotted (_ :: _ :: _) _ _) => False | _ => True end.
Definition app_all (n : nat) : Prop :=
  (forall h prox strict c k it v, bh h (c_body c) -> ih it <= h -> not_multi k -> 5 * h + 5 <= n -> fine h (append n prox strict c k it v))
  /\ (forall h prox strict c k it v, bh h (c_body c) -> is_aot it = true -> not_multi k -> 5 * h + 3 <= n -> fine h (append n prox strict c k it v))
  /\ (forall h c k, bh h (c_body c) -> 5 * h + 2 <= n -> contains n c k <> Err FuelE)
  /\ (forall h c l, bh h (c_body c) -> 5 * h + 1 <= n -> fine (h - 1) (proxy n c l))
  /\ (forall h c k, bh h (c_body c) -> 5 * h + 2 <= n -> validate_key n c k <> Err FuelE)
  /\ (forall h prox strict c tm k it, bh h (c_body c) -> ih it <= h -> not_multi k -> 5 * h + 6 <= n ->
        match table_append n prox strict c tm k it with Ok r => bh h (c_body (fst r)) | Err e => e <> FuelE end)
  /\ (forall h strict c ci nk v, bh h (c_body c) -> ih v <= h -> 5 * h + 6 <= n -> fine h (replace_at n strict c ci nk v))
  /\ (forall h strict c ci nk v, bh h (c_body c) -> is_aot v = true -> 5 * h + 4 <= n -> fine h (replace_at n strict c ci nk v)).

Lemma is_aot_ih i : is_aot i = true -> ih i = 0.
Proof. destruct i; cbn; try discriminate; reflexivity. Qed.
Lemma aot_set_name k i : is_aot (set_name k i) = is_aot i.
Proof. destruct i as [| | | | | |c m|l n p t]; try reflexivity; cbn; [destruct (tm_name m)|destruct n]; reflexivity. Qed.
Lemma aot_pre c k i : is_aot (pre_append c k i) = is_aot i.
Proof.
  destruct c as [body m p tks d]. unfold pre_append. destruct i as [| | | | | |tc tm|l n q t]; try reflexivity.
  - destruct (_ && _); destruct p; reflexivity.
  - destruct (_ && _); [|reflexivity]. destruct (inval_item (IAoT l n q t)) as [| | | | | |tc tm|[|x l'] n' q' t'] eqn:E; try discriminate; try reflexivity.
    destruct (negb _); reflexivity.
Qed.
Lemma bh_0_table b n k c m : bh 0 b -> nth_error b n = Some (k, ITable c m) -> False.
Proof. intros H E. apply (bh_nth 0 b n _ H) in E. cbn in E. lia. Qed.

Lemma rep_h n (Happ : forall h strict c k it, bh h (c_body c) -> ih it <= h -> 5 * h + 5 <= n -> fine h (append n Own strict c (Some (KSingle k)) it true))
  (Haot : forall h strict c k it, bh h (c_body c) -> is_aot it = true -> 5 * h + 3 <= n -> fine h (append n Own strict c (Some (KSingle k)) it true)) :
  forall h strict c ci nk v, bh h (c_body c) -> (is_aot v = true /\ 5 * h + 3 <= n \/ ih v <= h /\ 5 * h + 5 <= n) -> fine h (replace_at (S n) strict c ci nk v).
Proof.
  intros h strict c ci nk v Hc Hv. assert (Hvh : ih v <= h) by (destruct Hv as [[H _]|[H _]]; [rewrite (is_aot_ih _ H); lia|exact H]).
  destruct c as [body m p tks d]. cbn [replace_at]. destruct ci as [ci|]; [|nofuel].
  set (bi := match ci with One x => (body, x) | Many l => (fold_left (fun b x => list_set x (None, INull) b) (tl l) body, hd 0 l) end).
  assert (Hb : bh h (fst bi)) by (subst bi; destruct ci; [exact Hc|apply bh_nulls; exact Hc]).
  clearbody bi. destruct bi as [b ix]. cbn [fst] in Hb. clear Hc.
  destruct (nth_error b ix) as [[[k|] old]|] eqn:E; [|nofuel|nofuel]. cbv zeta.
  set (nkey := match nk with NKStr _ => _ | NKKey k' => k' end).
  set (mm := map_set _ _ _).
  match goal with |- fine h (rbind ?r ?f) => assert (R : match r with Ok x => bh h (c_body (fst x)) | Err e => e <> FuelE end) end.
  { destruct (xorb _ _).
    - pose proof (remove_h h (Cont b mm p tks d) (k_key k) Hb) as Hr. destruct (remove _ _) as [c1|e]; [|exact Hr]. cbn [rbind].
      destruct (find _ _) as [i|].
      + pose proof (insert_at_h h c1 i nkey v Hr Hvh) as Hi. destruct (insert_at c1 i nkey v); exact Hi.
      + assert (Ha : fine h (append n Own strict c1 (Some (KSingle nkey)) v true)).
        { destruct Hv as [[H1 H2]|[H1 H2]]; [apply Haot|apply Happ]; auto. }
        destruct (append n Own strict c1 (Some (KSingle nkey)) v true); exact Ha.
    - cbn [c_body fst]. apply bh_set; [exact Hb|]. cbn [snd]. rewrite ih_copy. exact Hvh. }
  match goal with |- fine h (rbind ?r ?f) => destruct r as [[c3 opos]|e]; [|exact R] end. cbn [rbind fst] in *.
  destruct (negb (is_table_or_aot v)); [exact R|].
  set (pos := match opos with Some i => i | None => _ end). clearbody pos.
  destruct (nth_error (c_body c3) pos) as [[bk v3]|] eqn:E3; [|exact R].
  assert (H3 : ih v3 <= h) by exact (bh_nth _ _ _ _ R E3). rewrite <- (ih_inval v3) in H3.
  destruct (inval_item v3) as [| | | | | |tc tmm|] eqn:Ei; try (destruct c3; cbn [set_body fine c_body] in *; apply bh_set; [exact R|exact H3]).
  destruct c3 as [b3 q1 q2 q3 q4]. cbn [fine c_body] in *. apply bh_set; [exact R|]. cbn [snd].
  destruct (_ && _); [|exact H3]. pose proof (ih_push tc tmm). lia.
Qed.

Lemma app_step n : app_all n -> forall h prox strict c k it v, bh h (c_body c) -> not_multi k ->
  (is_aot it = true /\ 5 * h + 3 <= S n \/ ih it <= h /\ 5 * h + 5 <= S n) -> fine h (append (S n) prox strict c k it v).
Proof.
  intros (IA & IAo & IC & IP & IV & IT & IR & IRo) h prox strict c k it v Hc Hk Hi. cbn [append].
  set (go := match kstr k with None => _ | Some _ => _ end).
  assert (Eq : match k with Some (KDotted (name :: (_ :: _) as rest) sep _) => append n prox strict c k it v | _ => go end = go).
  { destruct k as [[|[|? [|]] ? ?]|]; try reflexivity. destruct Hk. }
  assert (G : fine h go).
  2:{ destruct k as [[|[|? [|]] ? ?]|]; try exact G. destruct Hk. }
  clear Eq. subst go. generalize (kstr k). clear k Hk. intros k.
  set (it1 := match k with Some k' => set_name (k_key k') it | None => it end).
  assert (Hi1 : is_aot it1 = true /\ 5 * h + 3 <= S n \/ ih it1 <= h /\ 5 * h + 5 <= S n).
  { subst it1. destruct k; [|exact Hi]. rewrite aot_set_name, ih_set_name. exact Hi. }
  clearbody it1. clear Hi it.
  assert (Hi2 : is_aot (pre_append c k it1) = true /\ 5 * h + 3 <= S n \/ ih (pre_append c k it1) <= h /\ 5 * h + 5 <= S n)
    by (rewrite aot_pre, ih_pre_append; exact Hi1).
  set (i := pre_append c k it1) in *. clearbody i. clear Hi1 it1.
  assert (Hh : ih i <= h) by (destruct Hi2 as [[X _]|[X _]]; [rewrite (is_aot_ih _ X); lia|exact X]).
  destruct k as [k|]; [|apply append_end_h; assumption].
  apply fine_bind; [apply IC with (h := h); [exact Hc|lia]|]. intros present _.
  destruct (negb present); [apply append_end_h; assumption|].
  pose proof Hc as Hc0. destruct c as [body m p tks d] eqn:Ec. rewrite <- Ec in Hc0. cbn [c_body] in Hc.
  destruct (map_get (k_key k) m) as [ci|]; [|nofuel]. cbv zeta.
  set (pos := match ci with One x => x | Many l => last l 0 end). clearbody pos.
  destruct (nth_error body pos) as [[ck cur]|] eqn:E; [|nofuel].
  assert (Hcur : ih cur <= h) by exact (bh_nth _ _ _ _ Hc E).
  destruct i as [| | | | | |ic im|il iln ilp ilt]; try nofuel.
  - destruct Hi2 as [[X _]|[Hi Hn]]; [discriminate|].
    destruct (negb (is_table_or_aot cur)); [nofuel|].
    destruct (tm_aot im).
    { destruct (is_shared prox); [nofuel|]. destruct strict; [nofuel|]. destruct cur as [| | | | | |cc cm|l nm ap t]; try nofuel.
      - apply IRo; [exact Hc|reflexivity|lia].
      - cbn [fine c_body]. apply bh_set; [exact Hc|cbn; lia]. }
    destruct (is_aot cur); [nofuel|]. destruct (item_is_super cur).
    2:{ destruct (negb _); [nofuel|]. apply append_end_h; [exact Hc|exact Hi]. }
    destruct (table_is_super ic im).
    2:{ destruct (match ck with Some _ => _ | None => _ end); [nofuel|apply append_end_h; [exact Hc|exact Hi]]. }
    apply fine_bind.
    { destruct (_ || _); [nofuel|]. destruct tks; nofuel. }
    intros [|] _.
    + set (ix := if _ && _ then last_index_before_table body else _). clearbody ix. apply fine_bindc.
      { destruct (Nat.ltb _ _); [apply insert_at_h|apply raw_append_h]; try exact Hc; exact Hi. }
      intros c' Hc'. destruct v; [|exact Hc']. apply fine_bind; [apply IV with (h := h); [exact Hc'|lia]|]. intros; exact Hc'.
    + destruct (strict && _); [nofuel|]. destruct (strict && _); [nofuel|].
      destruct cur as [| | | | | |cc cm|]; try nofuel. cbn [ih] in Hcur, Hi.
      match goal with |- fine h (rbind ?r ?f) => assert (R : match r with Ok x => bh (h - 1) (c_body (fst x)) | Err e => e <> FuelE end) end.
      { apply (fold_inv (fun x : container * tmeta => bh (h - 1) (c_body (fst x)))); [cbn [fst]; apply ch_bh; lia|].
        intros [c1 m1] [k1 v1] Hin H1. cbn [fst snd] in *. apply IT; [exact H1| |destruct k1; exact I|lia].
        assert (B : bh (h - 1) (c_body ic)) by (apply ch_bh; lia). unfold bh in B. rewrite Forall_forall in B. apply (B _ Hin). }
      match goal with |- fine h (rbind ?r ?f) => destruct r as [[c1 m1]|e]; [|exact R] end. cbn [rbind fine c_body fst snd] in *.
      apply bh_set; [exact Hc|]. cbn [snd ih]. apply ch_bh in R. lia.
  - destruct cur as [| | | | | |cc cm|l nm ap t]; try nofuel. destruct (is_shared prox); [nofuel|].
    destruct (strict && _); [nofuel|]. destruct (strict && _); [nofuel|].
    cbn [fine c_body]. apply bh_set; [exact Hc|cbn; lia].
Qed.

Lemma app_all_ok n : app_all n.
Proof.
  induction n as [|n (IA & IAo & IC & IP & IV & IT & IR & IRo)].
  { unfold app_all. repeat match goal with |- _ /\ _ => split end; intros; exfalso; lia. }
  pose proof (conj IA (conj IAo (conj IC (conj IP (conj IV (conj IT (conj IR IRo))))))) as IH.
  split; [|split; [|split; [|split; [|split; [|split; [|split]]]]]].
  - intros. apply app_step; [exact IH|assumption|assumption|]. right. split; [assumption|lia].
  - intros. apply app_step; [exact IH|assumption|assumption|]. left. split; [assumption|lia].
  - intros h c k Hc Hn. cbn [contains]. destruct (map_get _ _) as [[|l]|]; [nofuel| |nofuel].
    pose proof (fine_noerr _ _ (IP h c l Hc ltac:(lia))) as H. destruct (proxy n c l) as [|e]; [nofuel|]. destruct e; congruence.
  - intros h c l Hc Hn. cbn [proxy].
    match goal with |- fine _ (rbind ?r ?f) => assert (R : match r with Ok ic => bh (h - 1) (c_body ic) /\ (h = 0 -> c_map ic = []) | Err e => e <> FuelE end) end.
    + apply (fold_inv (fun ic => bh (h - 1) (c_body ic) /\ (h = 0 -> c_map ic = []))); [split; [constructor|reflexivity]|]. intros ic i _ Hic.
      destruct (nth_error (c_body c) i) as [[k [| | | | | |tc tm|]]|] eqn:E; try exact Hic; [|nofuel].
      pose proof (bh_nth _ _ _ _ Hc E) as Ht. cbn [snd ih] in Ht. assert (Ht' : bh (h - 1) (c_body tc)) by (apply ch_bh; lia).
      match goal with |- match ?r with _ => _ end => enough (R : match r with Ok ic => bh (h - 1) (c_body ic) | Err e => e <> FuelE end)
        by (destruct r; [split; [exact R|lia]|exact R]) end.
      apply (fold_inv (fun ic => bh (h - 1) (c_body ic))); [apply Hic|]. intros ic' [k' v'] Hin Hic'.
      apply IA; [exact Hic'| |destruct k'; exact I|lia]. unfold bh in Ht'. rewrite Forall_forall in Ht'. apply (Ht' _ Hin).
    + match goal with |- fine _ (rbind ?r ?f) => destruct r as [ic|e]; [|exact R] end. destruct R as [Hic Hm]. cbn [rbind].
      apply fine_bind; [|intros; exact Hic].
      pose proof (fold_inv (fun _ : unit => True) (fun (_ : unit) kv => validate_key n ic (fst kv)) (c_map ic) tt I) as F.
      assert (F' : match fold_res (fun (_ : unit) kv => validate_key n ic (fst kv)) (c_map ic) tt with Ok _ => True | Err e => e <> FuelE end).
      { apply F. intros u kv Hin _. pose proof (IV (h - 1) ic (fst kv) Hic) as V.
        destruct h as [|h]; [rewrite (Hm eq_refl) in Hin; destruct Hin|].
        specialize (V ltac:(lia)). destruct (validate_key n ic (fst kv)); [exact I|congruence]. }
      destruct (fold_res _ _ _); congruence.
  - intros h c k Hc Hn. cbn [validate_key]. destruct (map_get _ _) as [[|l]|]; try nofuel.
    apply noerr_bind; [|nofuel]. eapply fine_noerr, IP; [exact Hc|lia].
  - intros h prox strict c tm k it Hc Hi Hk Hn. cbn [table_append].
    assert (Ha : fine h (append n prox strict c k it true)) by (apply IA; auto; lia).
    destruct (append n prox strict c k it true) as [c'|e]; [|exact Ha]. cbn [rbind fine] in *.
    destruct (option_map _ k) as [ks|].
    + destruct (map_get ks (c_map c')) as [[i|l]|]; [| |nofuel].
      * destruct (first_spaces _) as [ind|]; [|exact Ha]. destruct (negb _); [nofuel|]. destruct strict; [nofuel|].
        destruct (nth_error (c_body c') i) as [[bk v]|] eqn:E; [|nofuel].
        assert (Hs : bh h (c_body (set_body (list_set i (bk, item_indent_insert ind v) (c_body c')) c'))).
        { destruct c'. cbn [set_body c_body] in *. apply bh_set; [exact Ha|]. cbn [snd]. unfold item_indent_insert.
          destruct (is_wsitem v); rewrite ?ih_set_trivia; exact (bh_nth _ _ _ _ Ha E). }
        destruct v as [| | |[]| | | |]; try exact Hs; nofuel.
      * pose proof (fine_noerr _ _ (IP h c' l Ha ltac:(lia))) as H. destruct (proxy n c' l); cbn [rbind]; [|congruence].
        destruct (first_spaces _); [nofuel|exact Ha].
    + destruct (first_spaces _) as [ind|]; [|exact Ha]. destruct (negb _); [nofuel|]. destruct strict; [nofuel|].
      destruct (nth_error (c_body c') _) as [[bk v]|] eqn:E; [|exact Ha]. cbn [fst].
      destruct c'. cbn [set_body c_body] in *. apply bh_set; [exact Ha|]. cbn [snd]. unfold item_indent_insert.
      destruct (is_wsitem v); rewrite ?ih_set_trivia; exact (bh_nth _ _ _ _ Ha E).
  - intros. apply rep_h; auto; [| |right; split; [assumption|lia]]; intros; [apply IA|apply IAo]; auto; exact I.
  - intros. apply rep_h; auto; [| |left; split; [assumption|lia]]; intros; [apply IA|apply IAo]; auto; exact I.
Qed.

Lemma isize_h : (forall i, ih i <= isize i) /\ (forall c, ch c <= csize c).
Proof.
  apply item_cont_ind; intros; try (cbn; lia).
  cbn [ch csize]. induction H as [|[k v] b Hv Hb IH]; [cbn; lia|]. cbn [fold_right]. cbn [snd] in Hv. lia.
Qed.
Lemma append_fuel n prox strict c k it v : app_fuel c k it <= n -> append n prox strict c k it v <> Err FuelE
  /\ fine (csize c + isize it + match k with Some k => List.length (key_parts k) | None => 0 end) (append n prox strict c k it v).
Proof.
  intros Hn. unfold app_fuel in Hn. set (q := match k with Some k => _ | None => _ end) in *.
  set (h := csize c + isize it + q) in *.
  assert (Hc : bh h (c_body c)) by (apply ch_bh; pose proof (proj2 isize_h c); lia).
  assert (Hi : ih it <= h) by (pose proof (proj1 isize_h it); lia).
  assert (F : fine h (append n prox strict c k it v)).
  2:{ split; [eapply fine_noerr; exact F|exact F]. }
  assert (D : not_multi k \/ exists nm a l sep o, k = Some (KDotted (nm :: a :: l) sep o)).
  { destruct k as [[|[|? [|]] ? ?]|]; try (left; exact I). right. eauto 10. }
  destruct D as [D|(nm & a & l & sep & o & ->)]; [apply (proj1 (app_all_ok n)); auto; lia|].
  destruct n as [|n]; [lia|]. cbn [append]. destruct (is_table_or_aot it) eqn:E; [nofuel|]. apply (proj1 (app_all_ok n)); [exact Hc| |exact I|lia].
  cbn [ih]. assert (ih it = 0) by (destruct it; try reflexivity; discriminate).
  pose proof (dotted_h (a :: l) sep it H). subst q. cbn [key_parts List.length] in *. lia.
Qed.
Lemma cappend_fuel strict c k it : cappend strict c k it <> Err FuelE.
Proof. apply append_fuel. lia. Qed.
Lemma validate_all_fuel c : validate_all c <> Err FuelE.
Proof.
  unfold validate_all.
  pose proof (fold_inv (fun _ : unit => True) (fun (_ : unit) kv => validate_key (app_fuel c None INull) c (fst kv)) (c_map c) tt I) as F.
  cbv beta in F. match type of F with ?X -> _ => assert (H : X) end.
  { intros u kv _ _. enough (validate_key (app_fuel c None INull) c (fst kv) <> Err FuelE) by (destruct (validate_key _ _ _); [exact I|congruence]).
    destruct (app_all_ok (app_fuel c None INull)) as (_ & _ & _ & _ & IV & _). apply IV with (h := csize c); [apply ch_bh, isize_h|unfold app_fuel; lia]. }
  specialize (F H). destruct (fold_res _ _ _); congruence.
Qed.
Lemma table_raw_append_fuel strict c k it : table_raw_append strict c k it <> Err FuelE.
Proof.
  unfold table_raw_append. cbv zeta. destruct (append_fuel (app_fuel c k it) Own strict c k it false (le_n _)) as [H1 H2].
  destruct (append (app_fuel c k it) Own strict c k it false) as [c'|e]; [|exact H1]. cbn [rbind fine] in *.
  destruct (option_map _ k); [|nofuel]. destruct (map_get _ _) as [[|l0]|]; try nofuel.
  destruct (app_all_ok (app_fuel c k it)) as (_ & _ & _ & IP & _).
  apply noerr_bind; [|nofuel]. eapply fine_noerr, IP; [exact H2|]. unfold app_fuel. lia.
Qed.
Lemma set_item_fuel c k v : set_item c k v <> Err FuelE.
Proof.
  unfold set_item. cbv zeta. set (f := app_fuel c (Some (KSingle (skey_of_str k))) v).
  set (h := csize c + isize v).
  assert (Hc : bh h (c_body c)) by (apply ch_bh; pose proof (proj2 isize_h c); lia).
  assert (Hi : ih v <= h) by (pose proof (proj1 isize_h v); lia).
  assert (Hf : 5 * h + 6 <= f) by (subst f; unfold app_fuel; lia).
  destruct (app_all_ok f) as (IA & _ & IC & _ & _ & _ & IR & _).
  apply noerr_bind; [apply (IC h); [exact Hc|lia]|]. intros [|] _.
  - eapply fine_noerr, IR; eauto.
  - eapply fine_noerr, IA; eauto; [exact I|lia].
Qed.
