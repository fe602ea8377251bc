(** Unwrap: the equations of [unwrap]; the depth of an item bounds its recursion. *)
From Verif Require Import Base Source Utils Items Container Arrays Parser Lemmas Consist OMap ContOps Wf Fuel FuelParse Mono ListSpec ArrayLemmas ItemInd PyVal PyItem ItemConv.
From Coq Require Import ZifyBool ZifyNat ZifyN.
Open Scope nat_scope.

(** * Nothing gets deeper *)
Definition bd (h : nat) (b : list (option skey * item)) : Prop := Forall (fun kv => idepth (snd kv) <= h) b.
Lemma cdepth_bd c h : cdepth c <= S h <-> bd h (c_body c).
Proof.
  destruct c as [b m p t d]. cbn [c_body cdepth]. unfold bd. induction b as [|[k v] b IH]; cbn [fold_right].
  - split; [constructor|lia].
  - split.
    + intros H. constructor; [cbn; lia|]. apply IH. lia.
    + intros H. inversion H as [|? ? H1 H2]; subst. cbn in *. apply IH in H2. lia.
Qed.
Lemma cdepth_pos c : 1 <= cdepth c. Proof. destruct c. cbn. lia. Qed.
Lemma cdepth_self c : bd (pred (cdepth c)) (c_body c).
Proof. apply cdepth_bd. pose proof (cdepth_pos c). lia. Qed.
Definition td (h : nat) (l : list (container * tmeta)) : Prop := Forall (fun x => cdepth (fst x) <= h) l.
Lemma aot_td l n p t h : idepth (IAoT l n p t) <= S h <-> td h l.
Proof.
  cbn [idepth]. unfold td. induction l as [|[c m] l IH]; cbn [fold_right].
  - split; [constructor|lia].
  - split.
    + intros H. constructor; [cbn; lia|]. apply IH. lia.
    + intros H. inversion H as [|? ? H1 H2]; subst. cbn in *. apply IH in H2. lia.
Qed.
Definition keeps (h : nat) (r : res container) : Prop := match r with Ok c => bd h (c_body c) | Err _ => True end.
Lemma keeps_bind {A} (r : res A) h (f : A -> res container) : (forall a, r = Ok a -> keeps h (f a)) -> keeps h (rbind r f).
Proof. destruct r; cbn; intros H; [apply H; reflexivity|exact I]. Qed.
Lemma keeps_bindc r h (f : container -> res container) : keeps h r -> (forall a, bd h (c_body a) -> keeps h (f a)) -> keeps h (rbind r f).
Proof. destruct r; cbn; intros H K; [apply K; exact H|exact I]. Qed.
Lemma fold_keeps {A B} (P : B -> Prop) (f : B -> A -> res B) l : forall b,
  P b -> (forall b x, In x l -> P b -> match f b x with Ok b' => P b' | Err e => True end) -> match fold_res f l b with Ok b' => P b' | Err e => True end.
Proof.
  induction l as [|x l IH]; intros b Hb Hf; cbn [fold_res]; [exact Hb|]. pose proof (Hf b x (or_introl eq_refl) Hb) as H. destruct (f b x); [|exact I].
  apply IH; [exact H|]. intros; apply Hf; [right|]; assumption.
Qed.
Lemma bd_app h a b : bd h (a ++ b) <-> bd h a /\ bd h b. Proof. apply Forall_app. Qed.
Lemma bd_nth h b n x : bd h b -> nth_error b n = Some x -> idepth (snd x) <= h.
Proof. intros H E. apply nth_error_In in E. unfold bd in H. rewrite Forall_forall in H. auto. Qed.
Lemma bd_set h b n x : bd h b -> idepth (snd x) <= h -> bd h (list_set n x b).
Proof. intros H Hx. revert n. induction H as [|y b Hy Hb IH]; intros n; [destruct n; constructor|]. destruct n; cbn [list_set]; constructor; auto. apply IH. Qed.
Lemma bd_insert h b n x : bd h b -> idepth (snd x) <= h -> bd h (list_insert n x b).
Proof.
  intros H Hx. unfold list_insert. apply bd_app. split; [|constructor; [exact Hx|]]; unfold bd in *; rewrite Forall_forall in *; intros y Hy; apply H.
  - rewrite <- (firstn_skipn n b). apply in_or_app. auto.
  - rewrite <- (firstn_skipn n b). apply in_or_app. auto.
Qed.
Lemma bd_nulls h l : forall b, bd h b -> bd h (fold_left (fun b x => list_set x (None, INull) b) l b).
Proof. induction l as [|x l IH]; intros b H; [exact H|]. cbn [fold_left]. apply IH, bd_set; [exact H|cbn; lia]. Qed.
Lemma depth_trivia t i : idepth (set_trivia t i) = idepth i.
Proof. destruct i; reflexivity. Qed.
Lemma depth_name k i : idepth (set_name k i) = idepth i.
Proof. destruct i as [| | | | | |c m|l n p t]; try reflexivity; cbn; [destruct (tm_name m)|destruct n]; reflexivity. Qed.
Lemma depth_inval : (forall i, idepth (inval_item i) = idepth i) /\ (forall c, cdepth (inval_cont c) = cdepth c).
Proof.
  assert (G : forall i, idepth (inval_item i) = idepth i).
  2: { split; [exact G|]. intros c. pose proof (G (ITable c (super_meta None))) as H. cbn [inval_item idepth] in H. lia. }
  refine (item_ind2 (fun i => idepth (inval_item i) = idepth i) (fun c => cdepth (inval_cont c) = cdepth c) _ _ _ _ _ _ _ _ _); try reflexivity.
  - intros c m H. cbn [inval_item idepth]. rewrite H. reflexivity.
  - intros l n p t H. cbn [inval_item idepth]. f_equal. induction H as [|[c m] l Hc Hl IH]; [reflexivity|]. cbn [map fold_right fst] in *. rewrite Hc, IH. reflexivity.
  - intros b m p tks d H. cbn [inval_cont cdepth]. f_equal. generalize m at 1. intros mm. induction H as [|[k v] b Hv Hb IH]; [reflexivity|]. cbn [map fold_right snd] in *. rewrite <- IH. clear IH.
    destruct k as [k|]; [|reflexivity]. destruct (map_get (k_key k) mm) as [[]|]; rewrite ?Hv; reflexivity.
Qed.
Lemma depth_pre c k i : idepth (pre_append c k i) = idepth i.
Proof.
  destruct c as [body m p tks d], i as [ | | | | | |c0 m0|l n q t]; try reflexivity; cbn [pre_append].
  - set (j := if p then _ else _). assert (H : idepth j = idepth (ITable c0 m0)) by (subst j; destruct p; [reflexivity|apply depth_inval]). clearbody j. destruct (_ && _); [rewrite depth_trivia|]; exact H.
  - destruct (_ && _); [|reflexivity]. pose proof (proj1 depth_inval (IAoT l n q t)) as H. destruct (inval_item (IAoT l n q t)) as [ | | | | | | |[|[xc xm] l'] n' q' t']; try exact H. destruct (negb _); exact H.
Qed.
Lemma depth_nl i : idepth (add_nl_trail i) = idepth i. Proof. apply depth_trivia. Qed.
Lemma depth_copy v o : idepth (copy_trivia v o) = idepth v.
Proof. destruct v; reflexivity. Qed.
Lemma depth_indent ind v : idepth (item_indent_insert ind v) = idepth v.
Proof. unfold item_indent_insert. destruct (is_wsitem v); [reflexivity|apply depth_trivia]. Qed.
Lemma td_insert l p t i x h : td h l -> cdepth (fst x) <= h -> td h (aot_insert l p t i x).
Proof.
  intros Hl Hx. unfold aot_insert. set (x1 := match first_spaces _ with Some _ => _ | None => _ end).
  assert (H1 : fst x1 = fst x) by (subst x1; destruct (first_spaces _); [destruct x|]; reflexivity). clearbody x1.
  assert (G : forall n (y : container * tmeta) l', cdepth (fst y) <= h -> td h l' -> td h (list_insert n y l')).
  { intros n y l' Hy Hl'. unfold list_insert, td in *. rewrite <- (firstn_skipn n l') in Hl'. apply Forall_app in Hl' as [A B]. apply Forall_app. split; [exact A|constructor; assumption]. }
  destruct p; [apply G; [rewrite H1; exact Hx|exact Hl]|]. apply G.
  - destruct (_ && _); [|rewrite H1; exact Hx]. destruct x1; cbn [fst nl_indent] in *. subst. exact Hx.
  - destruct (Nat.ltb _ _); [|exact Hl]. destruct (nth_error l (S _)) as [y|] eqn:E; [|exact Hl]. destruct (_ && _); [|exact Hl].
    assert (Hy : cdepth (fst (nl_indent y)) <= h). { apply nth_error_In in E. unfold td in Hl. rewrite Forall_forall in Hl. specialize (Hl _ E). destruct y. exact Hl. }
    clear -Hl Hy. generalize (S (aot_index (List.length l) i)). induction Hl as [|z l Hz Hl IH]; intros [|n]; cbn [list_set]; constructor; auto. apply IH.
Qed.
Lemma td_fold p t ts h : td h ts -> forall l, td h l -> td h (fold_left (fun l x => aot_append l p t x) ts l).
Proof. induction 1 as [|x ts Hx Hts IH]; intros l Hl; [exact Hl|]. cbn [fold_left]. apply IH, td_insert; assumption. Qed.
Lemma raw_append_d h c k i : bd h (c_body c) -> idepth i <= h -> keeps h (raw_append c k i).
Proof.
  intros Hc Hi. destruct c as [body m p tks d]. cbn [c_body] in Hc. unfold raw_append. assert (H : bd h (body ++ [(k, i)])) by (apply bd_app; split; [exact Hc|constructor; [exact Hi|constructor]]).
  destruct k as [k|]; [|exact H]. cbv zeta. apply keeps_bind. intros; exact H.
Qed.
Lemma insert_at_d h c n k i : bd h (c_body c) -> idepth i <= h -> keeps h (insert_at c n k i).
Proof.
  intros Hc Hi. destruct c as [body m p tks d]. cbn [c_body] in Hc. unfold insert_at. destruct (_ || _); [exact I|]. cbn [keeps c_body]. apply bd_insert; [|exact Hi].
  destruct n as [|n]; [exact Hc|]. destruct (nth_error body n) as [[pk prev]|] eqn:E; [|exact Hc]. destruct (_ || _); [exact Hc|]. apply bd_set; [exact Hc|]. cbn [snd]. rewrite depth_nl. exact (bd_nth _ _ _ _ Hc E).
Qed.
Lemma append_end_d h c k i : bd h (c_body c) -> idepth i <= h -> keeps h (append_end c k i).
Proof.
  intros Hc Hi. unfold append_end. destruct c as [body m p tks d] eqn:Ec. cbn [c_body] in Hc. destruct k as [k|]; [|apply raw_append_d; assumption]. destruct (_ && _); [|apply raw_append_d; assumption].
  cbv zeta. destruct (Nat.ltb _ _); [apply insert_at_d; assumption|]. destruct (nth_error body _) as [[pk prev]|] eqn:E; [|apply raw_append_d; assumption].
  destruct (_ || _); apply raw_append_d; try assumption. cbn [c_body]. apply bd_set; [exact Hc|]. cbn [snd]. rewrite depth_nl. exact (bd_nth _ _ _ _ Hc E).
Qed.
Lemma remove_d h c k : bd h (c_body c) -> keeps h (remove c k).
Proof. intros Hc. destruct c as [body m p tks d]. cbn [c_body] in Hc. unfold remove. destruct (map_get _ _); [|exact I]. cbn [keeps c_body]. apply bd_nulls, Hc. Qed.
Lemma push_d c m h : idepth (ITable c m) <= h -> idepth (table_push_ws c m) <= h.
Proof.
  destruct c as [body cm p tks d]. intros H. cbn [table_push_ws idepth] in *. destruct h as [|h]; [lia|]. apply le_S_n in H. apply le_n_S.
  pose proof (cdepth_pos (Cont body cm p tks d)) as P. destruct h as [|h]; [lia|]. apply cdepth_bd. apply cdepth_bd in H. cbn [c_body] in *. apply bd_app. split; [exact H|]. constructor; [cbn; lia|constructor].
Qed.
Definition d_all (n : nat) : Prop :=
  (forall h prox strict c k it v, bd h (c_body c) -> idepth it <= h -> not_multi k -> keeps h (append n prox strict c k it v))
  /\ (forall h c l, bd h (c_body c) -> keeps (h - 2) (proxy n c l))
  /\ (forall h prox strict c tm k it, bd h (c_body c) -> idepth it <= h -> not_multi k -> match table_append n prox strict c tm k it with Ok r => bd h (c_body (fst r)) | Err e => True end)
  /\ (forall h strict c ci nk v, bd h (c_body c) -> idepth v <= h -> keeps h (replace_at n strict c ci nk v)).
Lemma d_all_ok n : d_all n.
Proof.
  induction n as [|n (IA & IP & IT & IR)]; [repeat split; intros; exact I|]. split; [|split; [|split]].
  - intros h prox strict c k it v Hc Hi Hk. cbn [append].
    set (go := match kstr k with None => _ | Some _ => _ end).
    assert (G : keeps h go). 2: { destruct k as [[|[|? [|]] ? ?]|]; try exact G. destruct Hk. }
    subst go. generalize (kstr k). clear k Hk. intros k.
    set (it1 := match k with Some k' => set_name (k_key k') it | None => it end). assert (Hi1 : idepth it1 <= h) by (subst it1; destruct k; [rewrite depth_name|]; exact Hi). clearbody it1. clear Hi it.
    rewrite <- (depth_pre c k it1) in Hi1. set (i := pre_append c k it1) in *. clearbody i. clear it1.
    destruct k as [k|]; [|apply append_end_d; assumption]. apply keeps_bind. intros present _. destruct (negb present); [apply append_end_d; assumption|].
    pose proof Hc as Hc0. destruct c as [body m p tks d] eqn:Ec. rewrite <- Ec in Hc0. cbn [c_body] in Hc.
    destruct (map_get (k_key k) m) as [ci|]; [|exact I]. cbv zeta. set (pos := match ci with One x => x | Many l => last l 0 end). clearbody pos.
    destruct (nth_error body pos) as [[ck cur]|] eqn:E; [|exact I]. assert (Hcur : idepth cur <= h) by exact (bd_nth _ _ _ _ Hc E).
    destruct i as [| | | | | |ic im|il iln ilp ilt]; try exact I.
    + destruct (negb (is_table_or_aot cur)); [exact I|]. destruct (tm_aot im).
      { destruct (is_shared prox); [exact I|]. destruct strict; [exact I|]. destruct h as [|h]; [cbn in Hi1; lia|]. destruct cur as [| | | | | |cc cm|l nm ap t]; try exact I.
        - apply IR; [exact Hc|]. unfold aot_make. apply aot_td. apply td_fold; [|constructor]. cbn [idepth] in *. repeat constructor; cbn [fst]; lia.
        - cbn [keeps c_body]. apply bd_set; [exact Hc|]. cbn [snd]. apply aot_td. apply td_insert; [apply (aot_td l nm ap t), Hcur|]. cbn [idepth fst] in *. lia. }
      destruct (is_aot cur); [exact I|]. destruct (item_is_super cur). 2: { destruct (negb _); [exact I|]. apply append_end_d; assumption. }
      destruct (table_is_super ic im). 2: { destruct (match ck with Some _ => _ | None => _ end); [exact I|apply append_end_d; assumption]. }
      apply keeps_bind. intros [|] _.
      * set (ix := if _ && _ then last_index_before_table body else _). clearbody ix. apply keeps_bindc. { destruct (Nat.ltb _ _); [apply insert_at_d|apply raw_append_d]; assumption. }
        intros c' Hc'. destruct v; [|exact Hc']. apply keeps_bind. intros; exact Hc'.
      * destruct (strict && _); [exact I|]. destruct (strict && _); [exact I|]. destruct cur as [| | | | | |cc cm|]; try exact I. cbn [idepth] in Hcur, Hi1.
        destruct h as [|h]; [lia|]. apply le_S_n in Hcur, Hi1. pose proof (cdepth_pos cc) as P1. destruct h as [|h]; [lia|]. apply cdepth_bd in Hcur, Hi1.
        match goal with |- keeps _ (rbind ?r ?f) => assert (R : match r with Ok x => bd h (c_body (fst x)) | Err e => True end) end.
        { apply (fold_keeps (fun x : container * tmeta => bd h (c_body (fst x)))); [exact Hcur|]. intros [c1 m1] [k1 v1] Hin H1. cbn [fst snd] in *. apply IT; [exact H1| |destruct k1; exact I].
          unfold bd in Hi1. rewrite Forall_forall in Hi1. apply (Hi1 _ Hin). }
        match goal with |- keeps _ (rbind ?r ?f) => destruct r as [[c1 m1]|e]; [|exact I] end. cbn [rbind keeps c_body fst snd] in *. apply bd_set; [exact Hc|]. cbn [snd idepth]. apply cdepth_bd in R. lia.
    + destruct cur as [| | | | | |cc cm|l nm ap t]; try exact I. destruct (is_shared prox); [exact I|]. destruct (strict && _); [exact I|]. destruct (strict && _); [exact I|].
      cbn [keeps c_body]. apply bd_set; [exact Hc|]. cbn [snd]. destruct h as [|h]; [cbn in Hi1; lia|]. apply aot_td. apply td_fold; [apply (aot_td il iln ilp ilt), Hi1|apply (aot_td l nm ap t), Hcur].
  - intros h c l Hc. cbn [proxy]. apply keeps_bindc; [|intros ic Hic; apply keeps_bind; intros; exact Hic]. apply (fold_keeps (fun ic => bd (h - 2) (c_body ic))); [constructor|]. intros ic i _ Hic.
    destruct (nth_error (c_body c) i) as [[k [| | | | | |tc tm|]]|] eqn:E; try exact Hic; [|exact I]. pose proof (bd_nth _ _ _ _ Hc E) as Ht. cbn [snd idepth] in Ht.
    assert (Ht' : bd (h - 2) (c_body tc)). { apply cdepth_bd. pose proof (cdepth_pos tc). lia. }
    apply (fold_keeps (fun ic => bd (h - 2) (c_body ic))); [exact Hic|]. intros ic' [k' v'] Hin Hic'. apply IA; [exact Hic'| |destruct k'; exact I]. unfold bd in Ht'. rewrite Forall_forall in Ht'. apply (Ht' _ Hin).
  - intros h prox strict c tm k it Hc Hi Hk. cbn [table_append]. pose proof (IA h prox strict c k it true Hc Hi Hk) as Ha. destruct (append n prox strict c k it true) as [c'|e]; [|exact I]. cbn [rbind keeps] in *.
    destruct (option_map _ k) as [ks|].
    + destruct (map_get ks (c_map c')) as [[i|l]|]; [| |exact I].
      * destruct (first_spaces _) as [ind|]; [|exact Ha]. destruct (negb _); [exact I|]. destruct strict; [exact I|]. destruct (nth_error (c_body c') i) as [[bk v]|] eqn:E; [|exact I].
        assert (Hs : bd h (c_body (set_body (list_set i (bk, item_indent_insert ind v) (c_body c')) c'))).
        { destruct c'. cbn [set_body c_body] in *. apply bd_set; [exact Ha|]. cbn [snd]. rewrite depth_indent. exact (bd_nth _ _ _ _ Ha E). }
        destruct v as [| | |[]| | | |]; try exact Hs; exact I.
      * destruct (proxy n c' l); cbn [rbind]; [|exact I]. destruct (first_spaces _); [exact I|exact Ha].
    + destruct (first_spaces _) as [ind|]; [|exact Ha]. destruct (negb _); [exact I|]. destruct strict; [exact I|]. destruct (nth_error (c_body c') _) as [[bk v]|] eqn:E; [|exact Ha]. cbn [fst].
      destruct c'. cbn [set_body c_body] in *. apply bd_set; [exact Ha|]. cbn [snd]. rewrite depth_indent. exact (bd_nth _ _ _ _ Ha E).
  - intros h strict c ci nk v Hc Hvh. destruct c as [body m p tks d]. cbn [replace_at]. destruct ci as [ci|]; [|exact I].
    set (bi := match ci with One x => (body, x) | Many l => (fold_left (fun b x => list_set x (None, INull) b) (tl l) body, hd 0 l) end).
    assert (Hb : bd h (fst bi)) by (subst bi; destruct ci; [exact Hc|apply bd_nulls; exact Hc]). clearbody bi. destruct bi as [b ix]. cbn [fst] in Hb. clear Hc.
    destruct (nth_error b ix) as [[[k|] old]|] eqn:E; [|exact I|exact I]. cbv zeta. set (nkey := match nk with NKStr _ => _ | NKKey k' => k' end). set (mm := map_set _ _ _).
    match goal with |- keeps h (rbind ?r ?f) => assert (R : match r with Ok x => bd h (c_body (fst x)) | Err e => True end) end.
    { destruct (xorb _ _).
      - pose proof (remove_d h (Cont b mm p tks d) (k_key k) Hb) as Hr. destruct (remove _ _) as [c1|e]; [|exact I]. cbn [rbind]. destruct (find _ _) as [i|].
        + pose proof (insert_at_d h c1 i nkey v Hr Hvh) as Hi. destruct (insert_at c1 i nkey v); [exact Hi|exact I].
        + pose proof (IA h Own strict c1 (Some (KSingle nkey)) v true Hr Hvh I) as Ha. destruct (append n Own strict c1 (Some (KSingle nkey)) v true); [exact Ha|exact I].
      - cbn [c_body fst]. apply bd_set; [exact Hb|]. cbn [snd]. rewrite depth_copy. exact Hvh. }
    match goal with |- keeps h (rbind ?r ?f) => destruct r as [[c3 opos]|e]; [|exact I] end. cbn [rbind fst] in *. destruct (negb (is_table_or_aot v)); [exact R|]. set (pos := match opos with Some i => i | None => _ end). clearbody pos.
    destruct (nth_error (c_body c3) pos) as [[bk v3]|] eqn:E3; [|exact R]. assert (H3 : idepth v3 <= h) by exact (bd_nth _ _ _ _ R E3). rewrite <- (proj1 depth_inval v3) in H3.
    destruct (inval_item v3) as [| | | | | |tc tmm|] eqn:Ei; try (destruct c3; cbn [set_body keeps c_body] in *; apply bd_set; [exact R|exact H3]).
    destruct c3 as [b3 q1 q2 q3 q4]. cbn [keeps c_body] in *. apply bd_set; [exact R|]. cbn [snd]. destruct (_ && _); [|exact H3]. apply push_d, H3.
Qed.
(** The view over an out-of-order table is less deep than the container. *)
Lemma proxy_shallow n c l ic : proxy n c l = Ok ic -> cdepth ic < cdepth c \/ ic = empty_cont true.
Proof.
  intros E. pose proof (cdepth_self c) as H. pose proof (cdepth_pos c) as P. destruct (Nat.le_gt_cases 3 (cdepth c)) as [G|G].
  - left. pose proof (proj1 (proj2 (d_all_ok n)) _ c l H) as K. rewrite E in K. cbn [keeps] in K. apply cdepth_bd in K. lia.
  - right. destruct n as [|n]; [discriminate|]. cbn [proxy] in E.
    assert (F : forall l, fold_res (fun ic i => match nth_error (c_body c) i with
        | Some (_, ITable tc _) => fold_res (fun ic (kv : option skey * item) => append n Shared false ic (option_map KSingle (fst kv)) (snd kv) false) (c_body tc) ic
        | Some _ => Ok ic | None => Err IndexErrorE end) l (empty_cont true) = Ok (empty_cont true) \/
      fold_res (fun ic i => match nth_error (c_body c) i with
        | Some (_, ITable tc _) => fold_res (fun ic (kv : option skey * item) => append n Shared false ic (option_map KSingle (fst kv)) (snd kv) false) (c_body tc) ic
        | Some _ => Ok ic | None => Err IndexErrorE end) l (empty_cont true) = Err IndexErrorE).
    { clear E. induction l0 as [|i l0 IH]; [left; reflexivity|]. cbn [fold_res]. destruct (nth_error (c_body c) i) as [[k it]|] eqn:E; [|right; reflexivity].
      pose proof (bd_nth _ _ _ _ H E) as D. cbn [snd] in D. destruct it as [| | | | | |tc tm|]; try exact IH. exfalso. cbn [idepth] in D. pose proof (cdepth_pos tc). lia. }
    destruct (F l) as [X|X]; rewrite X in E; [|discriminate]. cbn in E. congruence.
Qed.
(** * The equations of [unwrap] *)
Definition uval_n (n : nat) (c : container) (k : str) : option pyv :=
  match map_get k (c_map c) with
  | Some (One i) => match nth_error (c_body c) i with Some (_, v) => unwrap_n n v | None => None end
  | Some (Many l) => match proxy (app_fuel c None INull) c l with Ok ic => option_map PDict (unwrap_cont_n n ic) | Err _ => None end
  | None => None
  end.
Lemma cont_n_eq n c : unwrap_cont_n (S n) c = seqopt (map (fun k => option_map (pair k) (uval_n n c k)) (c_dict c)).
Proof.
  cbn [unwrap_cont_n]. induction (c_dict c) as [|k d IH]; [reflexivity|]. cbn [map seqopt]. rewrite IH. unfold uval_n at 2. destruct (match map_get k (c_map c) with Some _ => _ | None => _ end) as [v|]; [|reflexivity].
  cbn [option_map]. destruct (seqopt _); reflexivity.
Qed.
Lemma array_n_eq n gs t m : unwrap_n (S n) (IArray gs t m) = option_map PList (seqopt (map (unwrap_n n) (shown_vals gs))).
Proof.
  cbn [unwrap_n]. f_equal. induction gs as [|[a v b c] gs IH]; [reflexivity|]. cbn [shown_vals flat_map g_value] in IH |- *. fold (shown_vals gs).
  destruct v as [v|]; [|exact IH]. destruct v; cbn [real_b app map seqopt]; try exact IH; rewrite IH; reflexivity.
Qed.
Lemma aot_n_eq n l nm p t : unwrap_n (S n) (IAoT l nm p t) = option_map PList (seqopt (map (fun x => option_map PDict (unwrap_cont_n n (fst x))) l)).
Proof.
  cbn [unwrap_n]. f_equal. induction l as [|[c m] l IH]; [reflexivity|]. cbn [map seqopt fst]. rewrite IH. destruct (unwrap_cont_n n c); reflexivity.
Qed.
Lemma shown_depth gs v : In v (shown_vals gs) -> forall t m, idepth v < idepth (IArray gs t m).
Proof.
  intros H t m. cbn [idepth]. induction gs as [|[a w b c] gs IH]; [destruct H|]. cbn [shown_vals flat_map g_value fold_right] in *. fold (shown_vals gs) in H. apply in_app_or in H as [H|H]; [|specialize (IH H); lia].
  destruct w as [w|]; [|destruct H]. destruct (real_b w); [|destruct H]. destruct H as [->|[]]. lia.
Qed.
Lemma aot_depth l x : In x l -> forall n p t, cdepth (fst x) < idepth (IAoT l n p t).
Proof. intros H n p t. assert (T : td (pred (idepth (IAoT l n p t))) l) by (apply (aot_td l n p t); cbn [idepth]; lia). unfold td in T. rewrite Forall_forall in T. specialize (T _ H). cbn [idepth] in *. lia. Qed.
Lemma fuel_enough : forall n m, (forall i, idepth i < n -> idepth i < m -> unwrap_n n i = unwrap_n m i) /\ (forall c, cdepth c < n -> cdepth c < m -> unwrap_cont_n n c = unwrap_cont_n m c).
Proof.
  induction n as [|n IH]; intros m; [split; intros; lia|]. destruct m as [|m]; [split; intros; lia|]. destruct (IH m) as [I1 I2]. split.
  - intros i Hn Hm. destruct i as [| | |v t|gs t ml|c t b|c mt|l nm p t]; try reflexivity.
    + rewrite !array_n_eq. f_equal. f_equal. apply map_ext_in. intros v Hv. pose proof (shown_depth gs v Hv t ml). apply I1; lia.
    + cbn [unwrap_n idepth] in *. rewrite I2 by lia. reflexivity.
    + cbn [unwrap_n idepth] in *. rewrite I2 by lia. reflexivity.
    + rewrite !aot_n_eq. f_equal. f_equal. apply map_ext_in. intros x Hx. pose proof (aot_depth l x Hx nm p t). rewrite I2 by lia. reflexivity.
  - intros c Hn Hm. rewrite !cont_n_eq. f_equal. apply map_ext. intros k. f_equal. unfold uval_n. destruct (map_get k (c_map c)) as [[i|l]|]; [| |reflexivity].
    + destruct (nth_error (c_body c) i) as [[a v]|] eqn:E; [|reflexivity]. pose proof (bd_nth _ _ _ _ (cdepth_self c) E) as D. cbn [snd] in D. pose proof (cdepth_pos c). apply I1; lia.
    + destruct (proxy _ c l) as [ic|e] eqn:E; [|reflexivity]. f_equal. destruct (proxy_shallow _ _ _ _ E) as [D| ->]; [apply I2; lia|]. pose proof (cdepth_pos c). destruct n as [|n]; [lia|]. destruct m as [|m]; [lia|]. reflexivity.
Qed.
Lemma unwrap_enough n i : idepth i < n -> unwrap_n n i = unwrap i.
Proof. intros H. apply fuel_enough; lia. Qed.
Lemma cont_enough n c : cdepth c < n -> unwrap_cont_n n c = unwrap_cont c.
Proof. intros H. apply fuel_enough; lia. Qed.
(** What [self\[k\]] unwraps to. *)
Definition uval (c : container) (k : str) : option pyv :=
  match map_get k (c_map c) with
  | Some (One i) => match nth_error (c_body c) i with Some (_, v) => unwrap v | None => None end
  | Some (Many l) => match proxy (app_fuel c None INull) c l with Ok ic => option_map PDict (unwrap_cont ic) | Err _ => None end
  | None => None
  end.
Lemma unwrap_cont_eq c : unwrap_cont c = seqopt (map (fun k => option_map (pair k) (uval c k)) (c_dict c)).
Proof.
  unfold unwrap_cont. rewrite cont_n_eq. f_equal. apply map_ext. intros k. f_equal. unfold uval_n, uval. destruct (map_get k (c_map c)) as [[i|l]|]; [| |reflexivity].
  - destruct (nth_error (c_body c) i) as [[a v]|] eqn:E; [|reflexivity]. pose proof (bd_nth _ _ _ _ (cdepth_self c) E) as D. cbn [snd] in D. pose proof (cdepth_pos c). apply unwrap_enough. lia.
  - destruct (proxy _ c l) as [ic|e] eqn:E; [|reflexivity]. f_equal. destruct (proxy_shallow _ _ _ _ E) as [D| ->]; [apply cont_enough; lia|]. pose proof (cdepth_pos c). destruct (cdepth c); [lia|reflexivity].
Qed.
Lemma unwrap_array gs t m : unwrap (IArray gs t m) = option_map PList (seqopt (map unwrap (shown_vals gs))).
Proof. unfold unwrap at 1. rewrite array_n_eq. f_equal. f_equal. apply map_ext_in. intros v Hv. apply unwrap_enough. eapply shown_depth, Hv. Qed.
Lemma unwrap_aot l n p t : unwrap (IAoT l n p t) = option_map PList (seqopt (map (fun x => option_map PDict (unwrap_cont (fst x))) l)).
Proof. unfold unwrap. rewrite aot_n_eq. f_equal. f_equal. apply map_ext_in. intros x Hx. f_equal. apply cont_enough. eapply aot_depth, Hx. Qed.
Lemma unwrap_table c m : unwrap (ITable c m) = option_map PDict (unwrap_cont c).
Proof. reflexivity. Qed.
Lemma unwrap_inline c t n : unwrap (IInline c t n) = option_map PDict (unwrap_cont c).
Proof. reflexivity. Qed.
Lemma unwrap_trivia t i : unwrap (set_trivia t i) = unwrap i.
Proof. destruct i; reflexivity. Qed.
Lemma unwrap_strip i : unwrap (strip i) = unwrap i.
Proof. apply unwrap_trivia. Qed.
Lemma unwrap_name k i : unwrap (set_name k i) = unwrap i.
Proof. destruct i as [ | | | | | |c m|l n p t]; try reflexivity; cbn; [destruct (tm_name m); reflexivity|destruct n; reflexivity]. Qed.
(** The simple version is part of it. *)
Lemma seqopt_sub {A B} (f g : A -> option B) l : (forall x y, In x l -> f x = Some y -> g x = Some y) -> forall r, seqopt (map f l) = Some r -> seqopt (map g l) = Some r.
Proof.
  induction l as [|x l IH]; intros H r E; [exact E|]. cbn [map seqopt] in *. destruct (f x) as [y|] eqn:Ex; [|discriminate]. rewrite (H x y (or_introl eq_refl) Ex).
  destruct (seqopt (map f l)) as [q|]; [|discriminate]. rewrite (IH (fun a b Ha => H a b (or_intror Ha)) q eq_refl). exact E.
Qed.
Lemma simple_unwrap : forall i v, sunwrap i = Some v -> unwrap i = Some v.
Proof.
  refine (item_ind2 (fun i => forall v, sunwrap i = Some v -> unwrap i = Some v) (fun c => forall r, sunwrap_cont c = Some r -> unwrap_cont c = Some r) _ _ _ _ _ _ _ _ _); try (intros; discriminate).
  - intros v t x H. destruct v; exact H.
  - intros gs t m H v E. rewrite sunwrap_array in E. rewrite unwrap_array. destruct (seqopt (map sunwrap (shown_vals gs))) as [r|] eqn:S1; [|discriminate]. erewrite (seqopt_sub _ _); [exact E| |exact S1].
    intros x y Hx. assert (X : exists g, In g gs /\ g_value g = Some x). { clear -Hx. unfold shown_vals in Hx. apply in_flat_map in Hx as (g & Hg & Hx). exists g. split; [exact Hg|]. destruct (g_value g) as [w|]; [|destruct Hx]. destruct (real_b w); [|destruct Hx]. destruct Hx as [->|[]]. reflexivity. }
    destruct X as (g & Hg & Gx). rewrite Forall_forall in H. apply (H g Hg x Gx).
  - intros c t n H v E. rewrite sunwrap_inline in E. rewrite unwrap_inline. destruct (sunwrap_cont c); [|discriminate]. rewrite (H _ eq_refl). exact E.
  - intros c m H v E. rewrite sunwrap_table in E. rewrite unwrap_table. destruct (sunwrap_cont c); [|discriminate]. rewrite (H _ eq_refl). exact E.
  - intros l n p t H v E. rewrite sunwrap_aot in E. rewrite unwrap_aot. destruct (seqopt (map (fun x => option_map PDict (sunwrap_cont (fst x))) l)) as [r|] eqn:S1; [|discriminate]. erewrite (seqopt_sub _ _); [exact E| |exact S1].
    intros x y Hx F. rewrite Forall_forall in H. cbn beta in F. destruct (sunwrap_cont (fst x)) eqn:S2; [|discriminate F]. rewrite (H x Hx _ S2). exact F.
  - intros body m p tks d H r E. rewrite sunwrap_cont_eq in E. rewrite unwrap_cont_eq. eapply (seqopt_sub _ _); [|exact E]. intros k y Hk F. unfold suval, get_item in F. unfold uval. cbn [c_map c_body] in *.
    destruct (map_get k m) as [[i|l]|]; try discriminate F. destruct (nth_error body i) as [[a x]|] eqn:En; [|discriminate F]. cbn [option_map snd] in F. destruct (sunwrap x) as [w|] eqn:S1; [|discriminate F].
    rewrite Forall_forall in H. apply nth_error_In in En. specialize (H _ En _ S1). cbn [snd] in H. rewrite H. exact F.
Qed.
Theorem item_unwraps v : py_ok v -> exists i v', py_item PkNone v = Ok i /\ unwrap i = Some v' /\ pyeq v v'.
Proof. intros H. destruct (item_unwrap v H) as (i & v' & E & U & P). exists i, v'. auto using simple_unwrap. Qed.
Theorem simple_unwrap_cont c r : sunwrap_cont c = Some r -> unwrap_cont c = Some r.
Proof.
  intros H. assert (X : sunwrap (IInline c (mkTrivia [] [] [] []) false) = Some (PDict r)) by (rewrite sunwrap_inline, H; reflexivity).
  apply simple_unwrap in X. rewrite unwrap_inline in X. destruct (unwrap_cont c); [|discriminate X]. injection X as ->. reflexivity.
Qed.
