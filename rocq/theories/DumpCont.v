(** DumpCont: containers as the parser fills them, with a new key each time. *)
From Verif Require Import Base Source Utils Items Container Arrays Parser Lemmas Consist OMap ContOps Wf ArrayLemmas ItemInd PyVal PyItem ItemConv.
Open Scope nat_scope.

(** While parsing, [c] holds exactly the keys and values [r], in this order. *)
Definition shows (c : container) (r : list (str * pyv)) : Prop :=
  consistent c /\ c_parsed c = true /\ c_dict c = map fst r /\ Forall (fun kv => suval c (fst kv) = Some (snd kv)) r.
Lemma shows_empty : shows (empty_cont true) [].
Proof. split; [apply empty_consistent|]. repeat split. constructor. Qed.
Lemma shows_unwrap c r : shows c r -> sunwrap_cont c = Some r.
Proof.
  intros (_ & _ & D & U). rewrite sunwrap_cont_eq, D, map_map. clear D. induction U as [|[k v] r H U IH]; [reflexivity|].
  cbn [map seqopt fst snd] in *. rewrite H, IH. reflexivity.
Qed.
Lemma shows_one c r k ci : shows c r -> map_get k (c_map c) = Some ci -> exists i, ci = One i.
Proof.
  intros (C & _ & D & U) H. assert (X : In k (c_dict c)) by (apply (consistent_dict c k C); congruence).
  rewrite D, in_map_iff in X. destruct X as ([k' v] & <- & X). rewrite Forall_forall in U. specialize (U _ X). cbn [fst snd] in *.
  unfold suval, get_item in U. rewrite H in U. destruct ci; [eauto|discriminate].
Qed.
Lemma shows_absent c r k : shows c r -> ~ In k (map fst r) -> map_get k (c_map c) = None.
Proof. intros (C & _ & D & _) H. apply dict_get_none; [exact C|]. rewrite D. exact H. Qed.
Lemma shows_validate c r : shows c r -> validate_all c = Ok tt.
Proof.
  intros H. unfold validate_all. assert (G : forall l, fold_res (fun (_ : unit) (kv : str * cidx) => validate_key (app_fuel c None INull) c (fst kv)) l tt = Ok tt).
  { induction l as [|kv l IH]; [reflexivity|]. cbn [fold_res]. destruct (app_fuel_pos c None INull) as [n E]. rewrite E in *. cbn [validate_key].
    destruct (map_get (fst kv) (c_map c)) as [ci|] eqn:M; [destruct (shows_one c r _ ci H M) as [i ->]|]; exact IH. }
  apply G.
Qed.
(** A new key. *)
Definition add_new (c : container) (k : skey) (it : item) : container :=
  let 'Cont body m p tks d := c in
  Cont (body ++ [(Some k, set_name (k_key k) it)]) (map_set (k_key k) (One (List.length body)) m) p
       (if is_table it then tks ++ [k_key k] else tks) (d ++ [k_key k]).
Lemma pre_parsed c k it : c_parsed c = true -> pre_append c k it = it.
Proof.
  destruct c as [body m p tks d]. cbn [c_parsed]. intros ->. destruct it; try reflexivity; cbn [pre_append negb orb andb]; rewrite ?andb_false_r; reflexivity.
Qed.
Lemma name_table k it : is_table (set_name k it) = is_table it.
Proof. destruct it as [ | | | | | |c m|l n p t]; try reflexivity; cbn; [destruct (tm_name m); reflexivity|destruct n; reflexivity]. Qed.
Lemma append_add n prox c r k it val : shows c r -> ~ In (k_key k) (map fst r) ->
  append (S (S n)) prox false c (Some (KSingle k)) it val = Ok (add_new c k it).
Proof.
  intros H N. pose proof (shows_absent _ _ _ H N) as M. rewrite append_new_any by exact M. destruct H as (C & P & D & _). rewrite pre_parsed by exact P.
  destruct c as [body m p tks d]. cbn [c_parsed c_map c_dict] in *. subst p. unfold append_end. cbn [negb]. rewrite andb_false_r. cbn [andb].
  unfold raw_append. rewrite M. cbn [rbind]. unfold add_new. rewrite name_table, dict_set_new; [reflexivity|]. rewrite D. exact N.
Qed.
Lemma shows_add c r k it v : shows c r -> ~ In (k_key k) (map fst r) -> sunwrap it = Some v -> shows (add_new c k it) (r ++ [(k_key k, v)]).
Proof.
  intros H N U. pose proof (shows_absent _ _ _ H N) as M. destruct H as (C & P & D & F). destruct c as [body m p tks d]. cbn [c_parsed c_map c_dict] in *. subst p.
  destruct (raw_append_new body body m true tks d k (set_name (k_key k) it) C (sim_refl body) M) as (c' & E & A).
  assert (E' : c' = add_new (Cont body m true tks d) k it).
  { unfold raw_append in E. rewrite M in E. cbn [rbind] in E. rewrite name_table, dict_set_new in E by (rewrite D; exact N). injection E as <-. reflexivity. }
  subst c'. destruct A as [_ _ _ Sd Sp Sg So _ Sc]. cbn [c_dict c_parsed] in *. split; [exact Sc|]. split; [exact Sp|]. split; [rewrite Sd, D, map_app; reflexivity|].
  apply Forall_app. split.
  - rewrite Forall_forall in F |- *. intros [x w] Hx. specialize (F _ Hx). cbn [fst snd] in *. assert (Ne : x <> k_key k) by (intros ->; apply N, in_map_iff; exists (k_key k, w); auto).
    specialize (So x Ne). unfold suval in *. destruct (get_item (add_new _ k it) x) as [a|], (get_item (Cont body m true tks d) x) as [b|]; cbn [option_map] in So; try discriminate.
    injection So as S1. rewrite <- (sunwrap_strip a), S1, sunwrap_strip. exact F.
  - constructor; [|constructor]. cbn [fst snd]. unfold suval. rewrite Sg, sunwrap_name. exact U.
Qed.
Lemma cappend_add c r k it v : shows c r -> ~ In (k_key k) (map fst r) -> sunwrap it = Some v ->
  cappend false c (Some (KSingle k)) it = Ok (add_new c k it) /\ shows (add_new c k it) (r ++ [(k_key k, v)]).
Proof.
  intros H N U. unfold cappend. destruct (app_fuel_pos c (Some (KSingle k)) it) as [n ->]. rewrite (append_add _ _ c r) by assumption. split; [reflexivity|]. eapply shows_add; eauto.
Qed.
Lemma add_map c k it : map_get (k_key k) (c_map (add_new c k it)) = Some (One (List.length (c_body c))).
Proof. destruct c. cbn [add_new c_map c_body]. rewrite map_get_set, str_eqb_refl. reflexivity. Qed.
Lemma table_add c r k it : shows c r -> ~ In (k_key k) (map fst r) -> table_raw_append false c (Some (KSingle k)) it = Ok (add_new c k it).
Proof.
  intros H N. unfold table_raw_append. destruct (app_fuel_pos c (Some (KSingle k)) it) as [n ->]. rewrite (append_add _ _ c r) by assumption. cbn [rbind option_map key_parts].
  rewrite add_map. reflexivity.
Qed.
(** Blank lines. *)
Definition add_ws (c : container) (s : str) : container := let 'Cont body m p tks d := c in Cont (body ++ [(None, IWs s false)]) m p tks d.
Lemma append_ws {sf} n prox c s val : append (S n) prox sf c None (IWs s false) val = Ok (add_ws c s).
Proof. destruct c as [body m p tks d]. reflexivity. Qed.
Lemma shows_ws c r s : shows c r -> shows (add_ws c s) r.
Proof.
  destruct c as [body m p tks d]. intros (C & P & D & F). unfold shows. cbn [add_ws c_parsed c_dict] in *.
  assert (L : forall k ci i, map_get k m = Some ci -> In i (idxs ci) -> i < List.length body).
  { intros k ci i M I. destruct C as [C _]. destruct (C k ci M) as (_ & _ & K). rewrite Forall_forall in K. specialize (K i I). eapply keyed_lt, K. }
  split; [|split; [exact P|split; [exact D|]]].
  - destruct C as [Cm (Cc & Cd)]. cbn [c_body c_map c_dict] in *. split; [|split]; cbn [c_body c_map c_dict].
    + intros k ci M. destruct (Cm k ci M) as (A & B & K). split; [exact A|]. split; [exact B|]. rewrite Forall_forall in K |- *. intros i I. specialize (K i I).
      unfold keyed in *. destruct K as (sk & v & E & K). exists sk, v. split; [|exact K]. rewrite nth_error_app1; [exact E|]. eapply L; eauto.
    + intros i sk v E. assert (i < List.length body). { destruct (Nat.ltb_spec i (List.length body)); [assumption|]. rewrite nth_error_app2 in E by lia. destruct (i - List.length body) as [|[|?]]; discriminate. }
      rewrite nth_error_app1 in E by assumption. eapply Cc, E.
    + exact Cd.
  - eapply Forall_impl; [|exact F]. intros [k v] H. unfold suval, get_item in *. cbn [fst snd c_map c_body] in *. destruct (map_get k m) as [[i|]|] eqn:M; try discriminate.
    rewrite nth_error_app1; [exact H|]. eapply L; [exact M|left; reflexivity].
Qed.
