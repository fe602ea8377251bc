(** FailFacts: operations that raise leave things as they were (for C52). *)
From Verif Require Import Base Utils Items Container Arrays Api Lemmas Consist Wf ListSpec OMap ArrayLemmas ContOps Failing FailSpec.
Open Scope nat_scope.

(** * Containers *)
Lemma nulls_ok l : forall b m p t d, Forall (fun i => i < List.length b) l -> nulls l (Cont b m p t d) = (Ok tt, Cont (fold_left (fun b x => list_set x (None, INull) b) l b) m p t d).
Proof.
  induction l as [|i l IH]; intros b m p t d H; [reflexivity|]. inversion H as [|? ? A B]; subst. cbn [nulls fold_left]. unfold seq_, body_put. destruct (Nat.ltb_spec i (List.length b)); [|lia]. apply IH.
  assert (Ln : List.length (list_set i (@None skey, INull) b) = List.length b). { clear. revert i. induction b as [|x b IH]; intros [|i]; cbn; auto. }
  rewrite Ln. exact B.
Qed.
Lemma existsb_in k l : In k l -> existsb (str_eqb k) l = true.
Proof. intros H. apply existsb_exists. exists k. split; [exact H|apply str_eqb_refl]. Qed.
Definition outcome_of (c : container) (r : res container) : ran unit container := match r with Ok c' => (Ok tt, c') | Err e => (Err e, c) end.
Lemma remove_x_ok c k : consistent c -> remove_x k c = outcome_of c (remove c k).
Proof.
  intros C. destruct c as [b m p t d]. unfold remove_x, look, remove. cbn [c_map]. destruct (map_get k m) as [ci|] eqn:E; [|reflexivity].
  pose proof (proj2 (consistent_dict _ k C)) as D. cbn [c_dict c_map] in D. destruct C as [M _]. cbn [c_body c_map] in M. destruct (M _ _ E) as (_ & _ & F). unfold seq_. cbn [on_map].
  change (match ci with One x => [x] | Many l => l end) with (idxs ci). rewrite nulls_ok.
  - unfold dict_drop. rewrite existsb_in; [reflexivity|]. apply D. congruence.
  - eapply Forall_impl; [|exact F]. intros i (sk & v & N & _). apply nth_error_Some. congruence.
Qed.
Lemma raw_append_x_new c k it : map_get (k_key k) (c_map c) = None -> raw_append_x k it c = outcome_of c (raw_append c (Some k) it).
Proof.
  intros N. destruct c as [b m p t d]. cbn [c_map] in N. unfold raw_append_x, look, raw_append, seq_. cbn [c_map c_body]. rewrite N. cbn [on_map on_body rbind]. destruct (is_table it); reflexivity.
Qed.
Lemma insert_at_x_new c i k it : i < List.length (c_body c) -> is_table_or_aot it = false -> insert_at_x i k it c = outcome_of c (insert_at c i k it).
Proof.
  intros L T. destruct c as [b m p t d]. cbn [c_body] in L. unfold insert_at_x, look, insert_at. cbn [c_body]. destruct (Nat.leb_spec (List.length b) i); [lia|].
  destruct (Nat.ltb_spec (List.length b - 1) i); [lia|]. destruct (Nat.eqb_spec (List.length b) 0); [lia|]. cbn [orb]. rewrite T. unfold seq_. destruct i as [|i].
  - unfold skip. reflexivity.
  - destruct (nth_error b i) as [[pk prev]|] eqn:E; [|apply nth_error_None in E; lia]. rewrite orb_false_r. unfold skip, close_trail. destruct (_ || _); cbn [on_body]; [reflexivity|]. rewrite E. reflexivity.
Qed.
Lemma contains_one n c k i : map_get k (c_map c) = Some (One i) -> contains (S n) c k = Ok true.
Proof. intros H. cbn [contains]. rewrite H. reflexivity. Qed.
Lemma contains_none n c k : map_get k (c_map c) = None -> contains (S n) c k = Ok false.
Proof. intros H. cbn [contains]. rewrite H. reflexivity. Qed.
Lemma append_end_x c k v : plain v -> map_get k (c_map c) = None -> append_x k (Good v) c = outcome_of c (append_end c (Some (skey_of_str k)) v).
Proof.
  intros P N. unfold append_x, given, look. destruct (app_fuel_pos c (Some (KSingle (skey_of_str k))) v) as [n ->]. rewrite contains_none by exact N.
  pose proof (plain_not_table v P) as T. assert (N' : map_get (k_key (skey_of_str k)) (c_map c) = None) by (rewrite skey_of_str_key; exact N).
  destruct c as [b m p t d]. unfold append_end. cbn [c_body c_parsed]. rewrite T. cbn [negb orb]. rewrite andb_true_r. destruct (_ && _) eqn:Bx; [|apply raw_append_x_new, N']. cbv zeta. destruct (Nat.ltb_spec (last_index_before_table b) (List.length b)) as [L|_]; [apply insert_at_x_new; [exact L|exact T]|].
  apply andb_true_iff in Bx. destruct Bx as [Bx _]. apply Nat.ltb_lt in Bx. unfold seq_. destruct (nth_error b (List.length b - 1)) as [[pk prev]|] eqn:E; [|apply nth_error_None in E; lia].
  destruct (_ || _); unfold skip; [apply raw_append_x_new, N'|]. unfold close_trail. cbn [on_body]. rewrite E. rewrite raw_append_x_new by exact N'.
  unfold raw_append. cbn [c_map] in N'. rewrite N'. reflexivity.
Qed.
Lemma add_x_ok c k v : consistent c -> plain v -> oget k (view c) <> Some None -> append_x k (Good v) c = outcome_of c (cstep c (CAdd k v)).
Proof.
  intros C P A. rewrite oget_view in A by exact C. destruct (map_get k (c_map c)) as [[i|l]|] eqn:E.
  - cbn [cstep]. unfold cappend. destruct (app_fuel_pos c (Some (KSingle (skey_of_str k))) v) as [n En]. rewrite En.
    rewrite (append_dup _ Own false c (skey_of_str k) v true i C P) by (rewrite skey_of_str_key; exact E). unfold append_x, given, look. rewrite En, (contains_one _ _ _ _ E), skey_of_str_key. reflexivity.
  - exfalso. apply A. unfold get_item. rewrite E. reflexivity.
  - rewrite append_end_x by assumption. cbn [cstep]. unfold cappend. destruct (app_fuel_pos c (Some (KSingle (skey_of_str k))) v) as [n ->]. rewrite append_new; [reflexivity|exact C|exact P|rewrite skey_of_str_key; exact E].
Qed.
Lemma set_x_ok c k v : consistent c -> allowed (view c) (CSet k v) -> set_x k (Good v) c = outcome_of c (cstep c (CSet k v)).
Proof.
  intros C [P A]. rewrite oget_view in A by exact C. cbn [cstep]. unfold set_x, set_item, look. destruct (app_fuel_pos c (Some (KSingle (skey_of_str k))) v) as [n En]. rewrite En. destruct (map_get k (c_map c)) as [[i|l]|] eqn:E.
  - rewrite (contains_one _ _ _ _ E). cbn [rbind]. destruct (get_one c k i C E) as (sk & w & Nw & <- & G). rewrite G in A. cbn [option_map] in A. apply (proj1 (plain_strip w)) in A.
    rewrite <- E. rewrite (replace_plain _ false c i sk w v C E Nw A P). unfold outcome_of. unfold replace_x, look. rewrite E. unfold given, seq_ at 1, skip at 1. rewrite Nw, (plain_not_table w A), str_eqb_refl.
    destruct c as [b m p t d]. unfold seq_. cbn [c_map c_body] in *. rewrite E. cbn [on_map]. rewrite str_eqb_refl. unfold skip. unfold body_put. assert (L : i < List.length b) by (apply nth_error_Some; congruence). destruct (Nat.ltb_spec i (List.length b)); [reflexivity|lia].
  - exfalso. unfold get_item in A. rewrite E in A. exact A.
  - rewrite contains_none by exact E. cbn [rbind]. rewrite append_end_x by assumption. rewrite append_new; [reflexivity|exact C|exact P|rewrite skey_of_str_key; exact E].
Qed.
Lemma cmd_ok c o : consistent c -> allowed_arg (view c) o ->
  match effective o with Some o' => cmd_of o c = outcome_of c (cstep c o') | None => exists e, cmd_of o c = (Err e, c) end.
Proof.
  intros C A. unfold allowed_arg in A. destruct o as [k [v|e]|k [v|e]|k]; cbn [effective cmd_of] in *.
  - apply add_x_ok; [exact C|apply A|apply A].
  - exists e. reflexivity.
  - apply set_x_ok; assumption.
  - exists e. rewrite oget_view in A by exact C. unfold set_x, look. destruct (app_fuel_pos c (Some (KSingle (skey_of_str k))) INull) as [n ->]. destruct (map_get k (c_map c)) as [[i|l]|] eqn:E.
    + rewrite (contains_one _ _ _ _ E). unfold replace_x, look. rewrite E. reflexivity.
    + exfalso. apply A. unfold get_item. rewrite E. reflexivity.
    + rewrite contains_none by exact E. reflexivity.
  - apply remove_x_ok, C.
Qed.
Theorem runs_ok os : forall c, consistent c -> allowed_args (view c) os -> runs cmd_of c os = crun c (accepted os) /\ consistent (runs cmd_of c os) /\ view (runs cmd_of c os) = orun (view c) (map shown (accepted os)).
Proof.
  induction os as [|o os IH]; intros c C A; cbn [runs accepted crun map orun]; [auto|]. destruct A as [A As]. pose proof (cmd_ok c o C A) as X. unfold allowed_arg in A. destruct (effective o) as [o'|].
  - cbn [crun map orun]. pose proof (step_view c o' C A) as V. rewrite X. destruct (ostep (view c) (shown o')) as [m'|k|k] eqn:Eo; cbn [snd].
    + destruct V as (c' & E & C' & V). unfold outcome_of. rewrite E. cbn [snd]. subst m'. apply IH; assumption.
    + unfold outcome_of. rewrite V. cbn [snd]. apply IH; assumption.
    + unfold outcome_of. rewrite V. cbn [snd]. apply IH; assumption.
  - destruct X as [e ->]. cbn [snd]. apply IH; assumption.
Qed.

(** * Arrays *)
Lemma put_x_good a i x a' : arr_set a i x = Ok a' -> put_x i (Good x) a = (Ok tt, a').
Proof. intros E. unfold put_x, given. rewrite E. reflexivity. Qed.
Lemma swaps_x_ok k : forall i n a a', arr_swaps k i n a = Ok a' -> swaps_x k i n a = (Ok tt, a').
Proof.
  induction k as [|k IH]; intros i n a a' H; cbn [arr_swaps swaps_x] in *; [injection H as <-; reflexivity|]. unfold look.
  destruct (arr_get a (Z.of_nat (n - i - 1))) as [y|]; [|discriminate]. cbn [rbind] in H. destruct (arr_get a (Z.of_nat i)) as [x|]; [|discriminate]. cbn [rbind] in H.
  destruct (arr_set a (Z.of_nat i) y) as [a1|] eqn:S1; [|discriminate]. cbn [rbind] in H. destruct (arr_set a1 (Z.of_nat (n - i - 1)) x) as [a2|] eqn:S2; [|discriminate]. cbn [rbind] in H.
  unfold seq_. rewrite (put_x_good _ _ _ _ S1), (put_x_good _ _ _ _ S2). apply IH, H.
Qed.
Lemma push_x_good a l x : sync a l -> real x -> exists a', arr_append a x = Ok a' /\ push_x (Good x) a = (Ok tt, a') /\ sync a' (l ++ [x]).
Proof.
  intros S R. destruct (append_sync a l x S R) as (a' & E & S'). exists a'. split; [exact E|]. split; [|exact S']. unfold push_x, look, insert_x, given. unfold arr_append in E. rewrite E. reflexivity.
Qed.
Lemma extend_x_ok xs : forall a l, sync a l -> Forall real (goods xs) ->
  exists a', arr_extend a (goods xs) = Ok a' /\ extend_x xs a = (match first_bad xs with Some e => Err e | None => Ok tt end, a').
Proof.
  induction xs as [|[x|e] xs IH]; intros a l S R; cbn [goods first_bad extend_x arr_extend] in *; [exists a; split; reflexivity| |exists a; split; reflexivity].
  inversion R; subst. destruct (push_x_good a l x S) as (a1 & E & P & S1); [assumption|]. destruct (IH a1 _ S1) as (a' & E' & P'); [assumption|]. exists a'. rewrite E. split; [exact E'|]. unfold seq_. rewrite P. exact P'.
Qed.
Lemma py_index_out n i : py_index n i = None -> ((i <? - Z.of_nat n) || (Z.of_nat n <=? i))%Z = true.
Proof. unfold py_index. destruct (_ || _); [reflexivity|discriminate]. Qed.
Definition is_extend {A} (o : lop A) : bool := match o with LExtend _ => true | _ => false end.
(** One operation: what it leaves is what the plain operation gives, and unless it is [extend], it leaves things as they were if it raises. *)
Lemma array_cmd_ok a l o : sync a l -> Forall real l -> match list_op o with Some o' => Forall real (lop_values o') | None => True end ->
  let r := array_cmd o a in
  snd r = match list_op o with Some o' => match arr_step a o' with Ok a' => a' | Err _ => a end | None => a end /\
  (is_extend o = false -> forall e, fst r = Err e -> snd r = a) /\
  (fst r = Ok tt -> exists o' a', list_op o = Some o' /\ arr_step a o' = Ok a').
Proof.
  intros S R V. assert (Ln : List.length (a_list a) = List.length l) by (destruct S as [-> _]; apply map_length). destruct o as [x|xs|i x|i x|i|i| |]; cbn [array_cmd list_op is_extend] in *.
  - destruct x as [x|e]; [|split; [reflexivity|split; [reflexivity|discriminate]]]. cbn [lop_values arr_step] in *. inversion V; subst. destruct (push_x_good a l x S) as (a' & E & P & _); [assumption|]. rewrite P, E. split; [reflexivity|]. split; [discriminate|]. intros _. exists (LAppend x), a'. split; [reflexivity|exact E].
  - destruct (extend_x_ok xs a l S V) as (a' & E & P). cbn [arr_step]. rewrite P, E. split; [reflexivity|]. split; [discriminate|]. intros _. exists (LExtend (goods xs)), a'. split; [reflexivity|exact E].
  - destruct x as [x|e]; [|split; [reflexivity|split; [reflexivity|discriminate]]]. cbn [lop_values arr_step] in *. inversion V; subst. destruct (insert_sync a l i x S) as (a' & E & _); [assumption|]. unfold insert_x, given. rewrite E. split; [reflexivity|]. split; [discriminate|]. intros _. exists (LInsert i x), a'. split; [reflexivity|exact E].
  - destruct x as [x|e]; [|split; [reflexivity|split; [reflexivity|discriminate]]]. cbn [lop_values arr_step] in *. inversion V; subst. pose proof (set_sync a l i x S) as X. unfold put_x, given, out_of_range. destruct (py_index (List.length l) i) as [p|] eqn:Ep.
    + destruct X as (a' & E & _); [assumption|]. rewrite E. split; [reflexivity|]. split; [discriminate|]. intros _. exists (LSet i x), a'. split; [reflexivity|exact E].
    + rewrite X by assumption. rewrite Ln, (py_index_out _ _ Ep). split; [reflexivity|split; [reflexivity|discriminate]].
  - cbn [arr_step]. pose proof (del_sync a l i S) as X. unfold del_x, out_of_range. destruct (py_index (List.length l) i) as [p|] eqn:Ep.
    + destruct X as (a' & E & _). rewrite E. split; [reflexivity|]. split; [discriminate|]. intros _. exists (LDel i), a'. split; [reflexivity|exact E].
    + rewrite X. rewrite Ln, (py_index_out _ _ Ep). split; [reflexivity|split; [reflexivity|discriminate]].
  - pose proof (get_sync a l i S) as G. pose proof (del_sync a l i S) as X. unfold pop_x, look, arr_pop, del_x, arr_step, arr_pop. destruct (py_index (List.length l) i) as [p|].
    + destruct G as (v & _ & G). destruct X as (a' & E & _). rewrite G, E. cbn [rbind]. split; [reflexivity|]. split; [discriminate|]. intros _. exists (LPop i), a'. split; [reflexivity|]. rewrite G, E. reflexivity.
    + rewrite G. cbn [rbind]. split; [reflexivity|split; [reflexivity|discriminate]].
  - split; [reflexivity|]. split; [discriminate|]. intros _. exists LClear, (arr_clear a). split; reflexivity.
  - destruct (reverse_sync a l S R) as (a' & E & _). cbn [arr_step]. rewrite E. unfold look. unfold arr_reverse in E. cbv zeta in E. rewrite (swaps_x_ok _ _ _ _ _ E). split; [reflexivity|]. split; [discriminate|]. intros _. exists LReverse, a'. split; [reflexivity|exact E].
Qed.
Theorem array_runs os : forall a l, sync a l -> Forall real l -> real_args os ->
  runs array_cmd a os = arr_run a (list_ops os) /\ sync (runs array_cmd a os) (lrun l (list_ops os)) /\ Forall real (lrun l (list_ops os)).
Proof.
  induction os as [|o os IH]; intros a l S R V; cbn [runs list_ops arr_run lrun]; [auto|]. inversion V as [|? ? V1 V2]; subst. destruct (array_cmd_ok a l o S R V1) as (Es & _). rewrite Es. destruct (list_op o) as [o'|].
  - pose proof (step_sync a l o' S R V1) as X. cbn [arr_run lrun]. destruct (lstep l o') as [l'|].
    + destruct X as (a' & -> & S' & R'). apply IH; assumption.
    + rewrite X. apply IH; assumption.
  - apply IH; assumption.
Qed.
