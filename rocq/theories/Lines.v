(** Lines: containers filled by "names = value" statements; dotted keys that share a
    first name are kept apart and put together on reading. *)
From Verif Require Import Base Source Utils Items Container Arrays Parser Lemmas Consist OMap ContOps Wf Render Fuel FuelParse Mono ListSpec ArrayLemmas ItemInd PyVal PyItem ItemConv Unwrap DumpCont Denote.
From Coq Require Import ZifyBool ZifyNat ZifyN.
Open Scope nat_scope.

(** * Fuel *)
Lemma settle {A} (f : nat -> res A) : (forall a b, a <= b -> rle false (f a) (f b)) -> forall n m x, f n = Ok x -> f m <> Err FuelE -> f m = Ok x.
Proof.
  intros M n m x E F. destruct (Nat.le_ge_cases n m) as [L|L]; destruct (M _ _ L) as [(e & Q & B)|Q]; try congruence.
  exfalso. destruct e; try (destruct B; fail); [discriminate B|congruence].
Qed.
Lemma proxy_le c l a b : a <= b -> rle false (proxy a c l) (proxy b c l).
Proof. intros H. apply (amono_ok false a b H). Qed.
Lemma proxy_settle c l n m ic h : bh h (c_body c) -> 5 * h + 1 <= m -> proxy n c l = Ok ic -> proxy m c l = Ok ic.
Proof.
  intros Hb Hm E. eapply (settle (fun n => proxy n c l)); [intros; apply proxy_le; assumption|exact E|].
  destruct (app_all_ok m) as (_ & _ & _ & IP & _). eapply fine_noerr, IP; eauto.
Qed.
Lemma csize_bh c : bh (csize c) (c_body c). Proof. apply ch_bh, isize_h. Qed.
Lemma proxy_any c l n ic : proxy n c l = Ok ic -> proxy (app_fuel c None INull) c l = Ok ic.
Proof. apply (proxy_settle c l n _ ic (csize c)); [apply csize_bh|unfold app_fuel; lia]. Qed.
Lemma append_any {sf} prox c k it val n c' : append n prox sf c k it val = Ok c' -> append (app_fuel c k it) prox sf c k it val = Ok c'.
Proof.
  intros E. eapply (settle (fun n => append n prox sf c k it val)); [intros; apply append_le; [assumption|left; reflexivity]|exact E|].
  apply append_fuel. lia.
Qed.

(** * What an item says, during and after parsing *)
Definition says (it : item) (v : pyv) : Prop := unwrap it = Some v /\ unwrap (parsing_item false it) = Some v.
Lemma plain_parsing it : plain it -> parsing_item false it = it.
Proof. destruct it; try intros []; reflexivity. Qed.
Lemma plain_says it v : plain it -> unwrap it = Some v -> says it v.
Proof. intros P U. split; [exact U|]. rewrite plain_parsing by exact P. exact U. Qed.
Lemma parsing_twice : (forall i, parsing_item false (parsing_item false i) = parsing_item false i) /\ (forall c, parsing_cont false (parsing_cont false c) = parsing_cont false c).
Proof.
  assert (G : forall i, parsing_item false (parsing_item false i) = parsing_item false i).
  2: { split; [exact G|]. intros c. pose proof (G (ITable c (super_meta None))) as H. cbn [parsing_item] in H. congruence. }
  refine (item_ind2 (fun i => parsing_item false (parsing_item false i) = parsing_item false i) (fun c => parsing_cont false (parsing_cont false c) = parsing_cont false c) _ _ _ _ _ _ _ _ _); try reflexivity.
  - intros c m H. cbn [parsing_item]. rewrite H. reflexivity.
  - intros l n p t H. cbn [parsing_item]. f_equal. rewrite map_map. apply map_ext_in. intros [c m] Hin. rewrite Forall_forall in H. specialize (H _ Hin). cbn [fst] in H. rewrite H. reflexivity.
  - intros b m p tks d H. cbn [parsing_cont]. f_equal. rewrite map_map. apply map_ext_in. intros [k v] Hin. rewrite Forall_forall in H. specialize (H _ Hin). cbn [snd] in H. rewrite H. reflexivity.
Qed.
Lemma says_parsing it v : says it v -> says (parsing_item false it) v.
Proof. intros [A B]. split; [exact B|]. rewrite (proj1 parsing_twice). exact B. Qed.
Lemma parsing_name k it : parsing_item false (set_name k it) = set_name k (parsing_item false it).
Proof. destruct it as [ | | | | | |c m|l n p t]; try reflexivity; cbn; [destruct (tm_name m); reflexivity|destruct n; reflexivity]. Qed.
Lemma says_name k it v : says it v -> says (set_name k it) v.
Proof. intros [A B]. split; [|rewrite parsing_name]; rewrite unwrap_name; assumption. Qed.
Lemma parsing_trivia t it : parsing_item false (set_trivia t it) = set_trivia t (parsing_item false it).
Proof. destruct it; reflexivity. Qed.
Lemma says_trivia t it v : says it v -> says (set_trivia t it) v.
Proof. intros [A B]. split; [|rewrite parsing_trivia]; rewrite unwrap_trivia; assumption. Qed.

(** * Entries *)
(** The entry [(sk, it)] comes from the statement "names = v". *)
Definition lone (sk : skey) (it : item) (p : bool) (tks : list str) : container := Cont [(Some sk, it)] [(k_key sk, One 0)] p tks [k_key sk].
Inductive dent : list str -> pyv -> skey -> item -> Prop :=
  | de_value sk it v : plain it -> unwrap it = Some v -> dent [k_key sk] v sk it
  | de_table ns v sk sk' it' m p tks : dent ns v sk' it' -> k_dotted sk = true -> tm_aot m = false -> tm_super m = Some true ->
      dent (k_key sk :: ns) v sk (ITable (lone sk' it' p tks) m).
Lemma dent_head ns v sk it : dent ns v sk it -> exists r, ns = k_key sk :: r.
Proof. intros []; eauto. Qed.
Lemma dent_ne ns v sk it : dent ns v sk it -> ns <> [].
Proof. intros H. destruct (dent_head _ _ _ _ H) as [r ->]. discriminate. Qed.
Lemma dent_name k ns v sk it : dent ns v sk it -> dent ns v sk (set_name k it).
Proof. intros [? it' ? P U|ns' ? ? ? ? m ? ? H D A B]; [rewrite plain_name by exact P; constructor; assumption|]. cbn [set_name]. destruct (tm_name m); constructor; assumption. Qed.
Lemma dent_trivia t ns v sk it : dent ns v sk it -> dent ns v sk (set_trivia t it).
Proof.
  intros [? it' ? P U|ns' ? ? ? ? m ? ? H D A B].
  - constructor; [destruct it'; try destruct P; exact I|rewrite unwrap_trivia; exact U].
  - cbn [set_trivia]. destruct m. constructor; assumption.
Qed.
Lemma dent_parsing ns v sk it : dent ns v sk it -> dent ns v sk (parsing_item false it).
Proof.
  induction 1 as [sk it v P U|ns v sk sk' it' m p tks H IH D A B]; [rewrite plain_parsing by exact P; constructor; assumption|].
  cbn [parsing_item lone parsing_cont map]. apply (de_table ns v sk sk' (parsing_item false it') m false tks); assumption.
Qed.
Definition stmt : Type := (list str * pyv)%type.
Inductive puts : list (str * node) -> list stmt -> list (str * node) -> Prop :=
  | ps_nil t : puts t [] t
  | ps_cons t ns v t1 ss t2 : put ns v t t1 -> puts t1 ss t2 -> puts t ((ns, v) :: ss) t2.
Lemma puts_snoc t ss t1 ns v t2 : puts t ss t1 -> put ns v t1 t2 -> puts t (ss ++ [(ns, v)]) t2.
Proof. induction 1 as [t|t ns' v' t' ss t1 H H' IH]; intros P; cbn [app]; [econstructor; [exact P|constructor]|]. econstructor; [exact H|auto]. Qed.
(** The entries [l] of [c] are tables of the dotted key [k]. *)
Definition group (c : container) (k : str) (l : list nat) (ss : list stmt) : Prop :=
  Forall2 (fun i s => exists sk it, nth_error (c_body c) i = Some (Some sk, it) /\ dent (k :: fst s) (snd s) sk it /\ fst s <> []) l ss.
Definition short (h : nat) (ss : list stmt) : Prop := Forall (fun s => List.length (fst s) <= h) ss.
Definition at_node (h : nat) (c : container) (k : str) (n : node) : Prop :=
  match n with
  | Value v => exists i e it, map_get k (c_map c) = Some (One i) /\ nth_error (c_body c) i = Some (e, it) /\ says it v
  | Names t => exists ci ss, map_get k (c_map c) = Some ci /\ group c k (idxs ci) ss /\ short h ss /\ puts [] ss t
  end.
Definition lines (h : nat) (c : container) (t : list (str * node)) : Prop :=
  consistent c /\ c_dict c = map fst t /\ Forall (fun kn => at_node h c (fst kn) (snd kn)) t.
Lemma short_up h h' ss : h <= h' -> short h ss -> short h' ss.
Proof. intros L. apply Forall_impl. intros s. lia. Qed.
Lemma at_node_up h h' c k n : h <= h' -> at_node h c k n -> at_node h' c k n.
Proof. intros L. destruct n; [auto|]. intros (ci & ss & A & B & C & D). exists ci, ss. repeat split; eauto using short_up. Qed.
Lemma lines_up h h' c t : h <= h' -> lines h c t -> lines h' c t.
Proof. intros L (A & B & C). split; [exact A|]. split; [exact B|]. eapply Forall_impl; [|exact C]. intros kn. apply at_node_up, L. Qed.
Lemma lines_empty h p : lines h (empty_cont p) [].
Proof. split; [exact (empty_consistent p)|]. split; [reflexivity|constructor]. Qed.
Lemma lines_absent h c t k : lines h c t -> ~ In k (map fst t) -> map_get k (c_map c) = None.
Proof. intros (C & D & _) H. apply dict_get_none; [exact C|]. rewrite D. exact H. Qed.
Lemma lines_nodup h c t : lines h c t -> NoDup (map fst t).
Proof. intros ((_ & _ & _ & Nd & _) & D & _). rewrite <- D. exact Nd. Qed.
Lemma lines_node h c t k ci : lines h c t -> map_get k (c_map c) = Some ci -> exists n, In (k, n) t /\ at_node h c k n.
Proof.
  intros (C & D & F) M. assert (X : In k (c_dict c)) by (apply (consistent_dict c k C); congruence). rewrite D, in_map_iff in X. destruct X as ([k' n] & E & X). cbn [fst] in E. subst k'.
  exists n. split; [exact X|]. rewrite Forall_forall in F. exact (F _ X).
Qed.
(** Entries that do not change. *)
Lemma at_node_keep h c c' k n : map_get k (c_map c') = map_get k (c_map c) -> (forall ci i, map_get k (c_map c) = Some ci -> In i (idxs ci) -> nth_error (c_body c') i = nth_error (c_body c) i) ->
  at_node h c k n -> at_node h c' k n.
Proof.
  intros M N. destruct n as [v|t].
  - intros (i & e & it & A & B & S). exists i, e, it. rewrite M. split; [exact A|]. rewrite (N _ i A) by (left; reflexivity). auto.
  - intros (ci & ss & A & B & S & P). exists ci, ss. rewrite M. split; [exact A|]. split; [|auto]. assert (Hk : forall i, In i (idxs ci) -> nth_error (c_body c') i = nth_error (c_body c) i) by (intros i; apply N, A).
    unfold group in *. clear -B Hk. induction B as [|i s l ss H B IH]; constructor; [|apply IH; intros; apply Hk; right; assumption]. rewrite Hk by (left; reflexivity). exact H.
Qed.
Lemma index_lt c k ci i : consistent c -> map_get k (c_map c) = Some ci -> In i (idxs ci) -> i < List.length (c_body c).
Proof. intros [C _] M I. destruct (C k ci M) as (_ & _ & K). rewrite Forall_forall in K. specialize (K i I). eapply keyed_lt, K. Qed.
(** * A new name *)
Lemma append_absent {sf} n prox c k it val : consistent c -> c_parsed c = true -> map_get (k_key k) (c_map c) = None -> append (S (S n)) prox sf c (Some (KSingle k)) it val = Ok (add_new c k it).
Proof.
  intros C P M. rewrite append_new_any by exact M. rewrite pre_parsed by exact P. assert (N : ~ In (k_key k) (c_dict c)) by (intros X; apply (consistent_dict c _ C) in X; congruence).
  destruct c as [body m p tks d]. cbn [c_parsed c_map c_dict] in *. subst p. unfold append_end. cbn [negb]. rewrite andb_false_r. cbn [andb].
  unfold raw_append. rewrite M. cbn [rbind]. unfold add_new. rewrite name_table, dict_set_new; [reflexivity|exact N].
Qed.
Lemma add_new_facts c k it : consistent c -> map_get (k_key k) (c_map c) = None ->
  consistent (add_new c k it) /\ c_parsed (add_new c k it) = c_parsed c /\ c_dict (add_new c k it) = c_dict c ++ [k_key k] /\ c_body (add_new c k it) = c_body c ++ [(Some k, set_name (k_key k) it)] /\
  forall x, map_get x (c_map (add_new c k it)) = if str_eqb x (k_key k) then Some (One (List.length (c_body c))) else map_get x (c_map c).
Proof.
  intros C M. pose proof C as [Mo F]. assert (N : ~ In (k_key k) (c_dict c)) by (intros X; apply (consistent_dict c _ C) in X; congruence).
  destruct c as [body m p tks d]. cbn [add_new c_body c_map c_dict c_parsed] in *. split.
  - split; cbn [c_body c_map c_dict]; [apply map_ok_one; assumption|]. rewrite <- (dict_set_new (k_key k) d N). apply full_one; assumption.
  - split; [reflexivity|]. split; [reflexivity|]. split; [reflexivity|]. intros x. apply map_get_set.
Qed.
Lemma lines_new h c t k it n : lines h c t -> ~ In (k_key k) (map fst t) -> at_node h (add_new c k it) (k_key k) n -> lines h (add_new c k it) (t ++ [(k_key k, n)]).
Proof.
  intros Hl Nk A. pose proof (lines_absent _ _ _ _ Hl Nk) as M. destruct Hl as (C & D & F). destruct (add_new_facts c k it C M) as (C' & _ & D' & B' & M'). split; [exact C'|]. split; [rewrite D', D, map_app; reflexivity|].
  apply Forall_app. split; [|constructor; [exact A|constructor]]. rewrite Forall_forall in F |- *. intros [x m] Hx. specialize (F _ Hx). cbn [fst snd] in *.
  assert (Ne : str_eqb x (k_key k) = false) by (apply str_eqb_neq; intros ->; apply Nk, in_map_iff; exists (k_key k, m); auto).
  eapply at_node_keep; [rewrite M', Ne; reflexivity| |exact F]. intros ci i Mx Hi. rewrite B'. apply nth_error_app1. eapply index_lt; eauto.
Qed.
Lemma add_new_entry c k it : nth_error (c_body (add_new c k it)) (List.length (c_body c)) = Some (Some k, set_name (k_key k) it).
Proof. destruct c as [b m p tks d]. cbn [add_new c_body]. rewrite nth_error_app2, Nat.sub_diag by lia. reflexivity. Qed.
Lemma lines_add h c t k it v : lines h c t -> ~ In (k_key k) (map fst t) -> says it v -> lines h (add_new c k it) (t ++ [(k_key k, Value v)]).
Proof.
  intros Hl Nk S. apply lines_new; [exact Hl|exact Nk|]. pose proof (lines_absent _ _ _ _ Hl Nk) as M. destruct Hl as (C & _). destruct (add_new_facts c k it C M) as (_ & _ & _ & _ & M').
  exists (List.length (c_body c)), (Some k), (set_name (k_key k) it). rewrite M', str_eqb_refl. split; [reflexivity|]. split; [apply add_new_entry|apply says_name, S].
Qed.
Lemma put_ne r v t t' : put r v t t' -> r <> [].
Proof. intros []; discriminate. Qed.
(** * One more statement *)
Definition proxies (h : nat) : Prop := forall c k l ss t, group c k l ss -> short h ss -> puts [] ss t ->
  exists ic, c_parsed ic = true /\ lines (pred h) ic t /\ exists n0, forall n, n0 <= n -> proxy n c l = Ok ic.
Definition add_more (c : container) (k : skey) (it : item) (l : list nat) : container :=
  let 'Cont body m p tks d := c in Cont (body ++ [(Some k, it)]) (map_set (k_key k) (Many (l ++ [List.length body])) m) p (if is_table it then tks ++ [k_key k] else tks) d.
Lemma more_facts c k it ci : consistent c -> map_get (k_key k) (c_map c) = Some ci -> is_table it = true -> Forall (keyed true (c_body c) (k_key k)) (idxs ci) ->
  consistent (add_more c k it (idxs ci)) /\ forall x, map_get x (c_map (add_more c k it (idxs ci))) = if str_eqb x (k_key k) then Some (Many (idxs ci ++ [List.length (c_body c)])) else map_get x (c_map c).
Proof.
  intros (Mo & Co & Nm & Nd & Dm) M T K. pose proof (Mo _ _ M) as (N1 & N2 & _). destruct c as [body m p tks d]. cbn [add_more c_body c_map c_dict] in *.
  assert (Up : forall tb x i, keyed tb body x i -> keyed tb (body ++ [(Some k, it)]) x i).
  { intros tb x i (sk & v & E & Q). exists sk, v. split; [|exact Q]. rewrite nth_error_app1; [exact E|]. apply nth_error_Some. congruence. }
  split; [split; [|split; [|split; [|split]]]|]; cbn [c_body c_map c_dict].
  - intros x cj. rewrite map_get_set. destruct (str_eqb x (k_key k)) eqn:E.
    + intros H. injection H as <-. apply str_eqb_eq in E. subst x. cbn [idxs]. split; [cbn [roomy]; rewrite app_length; pose proof (roomy_ne _ N1) as N1'; destruct (idxs ci); [congruence|cbn; lia]|]. split.
      * apply NoDup_Add with (a := List.length body) (l := idxs ci); [rewrite <- (app_nil_r (idxs ci)) at 1; apply Add_app|]. split; [exact N2|]. intros X. rewrite Forall_forall in K. apply K, keyed_lt in X. lia.
      * apply Forall_app. split; [eapply Forall_impl; [|exact K]; apply Up|]. constructor; [|constructor]. exists k, it. rewrite nth_error_app2, Nat.sub_diag by lia. auto.
    + intros H. destruct (Mo _ _ H) as (A & B & D). split; [exact A|]. split; [exact B|]. eapply Forall_impl; [|exact D]. intros i. apply Up.
  - intros i sk v E. destruct (Nat.lt_ge_cases i (List.length body)) as [L|L].
    + rewrite nth_error_app1 in E by exact L. destruct (Co _ _ _ E) as (cj & A & B). rewrite map_get_set. destruct (str_eqb (k_key sk) (k_key k)) eqn:Ek; [|eauto].
      apply str_eqb_eq in Ek. eexists. split; [reflexivity|]. cbn [idxs]. apply in_or_app. left. rewrite Ek, M in A. injection A as ->. exact B.
    + rewrite nth_error_app2 in E by exact L. destruct (i - List.length body) as [|q] eqn:Q; cbn [nth_error] in E; [|destruct q; discriminate]. injection E as <- <-. rewrite map_get_set, str_eqb_refl. eexists. split; [reflexivity|].
      cbn [idxs]. apply in_or_app. right. left. lia.
  - apply nodup_map_set, Nm.
  - exact Nd.
  - intros x. rewrite map_get_set, Dm. destruct (str_eqb x (k_key k)) eqn:E; [|reflexivity]. apply str_eqb_eq in E. subst x. rewrite M. split; discriminate.
  - intros x. apply map_get_set.
Qed.
Lemma group_keyed c k l ss : group c k l ss -> Forall (keyed true (c_body c) k) l.
Proof.
  induction 1 as [|i s l ss (sk & it & E & D & N) H IH]; constructor; [|exact IH]. inversion D as [? ? ? P U Q1 Q2 Q3|? ? ? ? ? ? ? ? D' ? ? ? Q1]; subst; [congruence|]. eexists _, _. split; [exact E|]. auto.
Qed.
Lemma group_last c k l ss : group c k l ss -> l <> [] -> exists sk tc m, nth_error (c_body c) (last l 0) = Some (Some sk, ITable tc m) /\ k_dotted sk = true /\ tm_super m = Some true.
Proof.
  induction 1 as [|i s l ss (sk & it & E & D & N) H IH]; intros Nl; [congruence|]. destruct l as [|j l].
  - cbn [last]. inversion D as [? ? ? P U Q1 Q2 Q3|? ? ? ? ? ? ? ? D' ? ? ? Q1]; subst; [congruence|]. eexists _, _, _. split; [exact E|]. auto.
  - apply IH. discriminate.
Qed.
Lemma dent_table ns v sk it : dent ns v sk it -> forall k r, ns = k :: r -> r <> [] -> is_table it = true /\ k_dotted sk = true /\ is_table_or_aot it = true /\ exists tc m, it = ITable tc m /\ tm_aot m = false /\ tm_super m = Some true.
Proof. intros [? ? ? P U|? ? ? ? ? m ? ? H D A B] k r E N; [congruence|]. repeat split; auto. eauto 8. Qed.
Lemma add_stmt h : proxies h -> forall c t ns v t2 sk it, c_parsed c = true -> lines h c t -> List.length ns <= S h -> dent ns v sk it -> put ns v t t2 ->
  exists c2, c_parsed c2 = true /\ lines h c2 t2 /\ (exists n0, forall n prox sf val, n0 <= n -> append n prox sf c (Some (KSingle sk)) it val = Ok c2) /\ c_body c2 = c_body c ++ [(Some sk, set_name (k_key sk) it)].
Proof.
  intros Q c t ns v t2 sk it Pc Hl Ln Hd Hp. pose proof (dent_head _ _ _ _ Hd) as [r0 Er0].
  assert (Fresh : forall nd, ~ In (k_key sk) (map fst t) -> at_node h (add_new c sk it) (k_key sk) nd ->
    exists c2, c_parsed c2 = true /\ lines h c2 (t ++ [(k_key sk, nd)]) /\ (exists n0, forall n prox sf val, n0 <= n -> append n prox sf c (Some (KSingle sk)) it val = Ok c2) /\ c_body c2 = c_body c ++ [(Some sk, set_name (k_key sk) it)]).
  { intros nd Nk A. pose proof (lines_absent _ _ _ _ Hl Nk) as M. destruct Hl as (C & Hl'). destruct (add_new_facts c sk it C M) as (_ & P' & _ & B' & _). exists (add_new c sk it). split; [congruence|]. split; [apply lines_new; [split; [exact C|exact Hl']|exact Nk|exact A]|].
    split; [|exact B']. exists 2. intros n prox sf val Hn. destruct n as [|[|n]]; try lia. apply append_absent; assumption. }
  inversion Hp as [k v0 l Nk|k r v0 l m Nk Hm|k r v0 a m m' b Hm]; subst.
  - injection H as Ek. subst k r0. apply Fresh; [exact Nk|]. pose proof (lines_absent _ _ _ _ Hl Nk) as M. destruct Hl as (C & _). destruct (add_new_facts c sk it C M) as (_ & _ & _ & _ & M').
    exists (List.length (c_body c)), (Some sk), (set_name (k_key sk) it). rewrite M', str_eqb_refl. split; [reflexivity|]. split; [apply add_new_entry|].
    inversion Hd as [? ? ? P U|? ? ? ? ? ? ? ? D' ? ? ? Q1]; subst; [|apply dent_ne in D'; congruence]. rewrite plain_name by exact P. apply plain_says; assumption.
  - injection H as Ek Er. subst k r0. apply Fresh; [exact Nk|]. pose proof (lines_absent _ _ _ _ Hl Nk) as M. destruct Hl as (C & _). destruct (add_new_facts c sk it C M) as (_ & _ & _ & _ & M').
    exists (One (List.length (c_body c))), [(r, v)]. rewrite M', str_eqb_refl. split; [reflexivity|]. split; [|split].
    + constructor; [|constructor]. exists sk, (set_name (k_key sk) it). split; [apply add_new_entry|]. split; [apply dent_name, Hd|eapply put_ne, Hm].
    + constructor; [cbn [fst List.length] in *; lia|constructor].
    + econstructor; [exact Hm|constructor].
  - injection H as Ek Er. subst k r0. pose proof Hl as (C & D & F). pose proof (put_ne _ _ _ _ Hm) as Nr.
    assert (A : at_node h c (k_key sk) (Names m)) by (rewrite Forall_forall in F; apply (F (k_key sk, Names m)), in_or_app; right; left; reflexivity).
    destruct A as (ci & ss & M & G & Sh & P). pose proof (group_keyed _ _ _ _ G) as Gk.
    destruct (dent_table _ _ _ _ (dent_name (k_key sk) _ _ _ _ Hd) _ _ eq_refl Nr) as (T1 & T2 & T3 & tc & tm & Et & Ta & Ts). set (it1 := set_name (k_key sk) it) in *.
    assert (Nl : idxs ci <> []) by (destruct C as [Mo _]; apply roomy_ne, (Mo _ _ M)). destruct (group_last _ _ _ _ G Nl) as (lk & lc & lm & El & Ld & Ls).
    destruct (more_facts c sk it1 ci C M T1 Gk) as (C2 & M2). set (c2 := add_more c sk it1 (idxs ci)) in *.
    assert (B2 : c_body c2 = c_body c ++ [(Some sk, it1)]) by (subst c2; destruct c; reflexivity).
    assert (G2 : group c2 (k_key sk) (idxs ci ++ [List.length (c_body c)]) (ss ++ [(r, v)])).
    { apply Forall2_app.
      - unfold group in G. clearbody c2 it1. clear -G B2 Gk. rewrite B2. clear B2. revert Gk. induction G as [|i s l ss (k0 & i0 & E & X) G IH]; intros Gk; [constructor|]. constructor; [|apply IH; inversion Gk; assumption].
        exists k0, i0. split; [|exact X]. rewrite nth_error_app1; [exact E|]. apply nth_error_Some. congruence.
      - constructor; [|constructor]. exists sk, it1. split; [rewrite B2, nth_error_app2, Nat.sub_diag by lia; reflexivity|]. split; [apply dent_name, Hd|exact Nr]. }
    assert (Sh2 : short h (ss ++ [(r, v)])) by (apply Forall_app; split; [exact Sh|constructor; [cbn [fst List.length] in *; lia|constructor]]).
    assert (P2 : puts [] (ss ++ [(r, v)]) m') by (eapply puts_snoc; eassumption).
    destruct (Q c (k_key sk) (idxs ci) ss m G Sh P) as (ic & _ & _ & n1 & E1). destruct (Q c2 (k_key sk) _ _ m' G2 Sh2 P2) as (ic2 & _ & _ & n2 & E2).
    exists c2. split; [subst c2; destruct c; exact Pc|]. split.
    + split; [exact C2|]. split; [replace (c_dict c2) with (c_dict c) by (subst c2; destruct c; reflexivity); rewrite D, !map_app; reflexivity|].
      apply lines_nodup in Hl. rewrite map_app in Hl. cbn [map fst] in Hl. apply Forall_app in F as [F1 F2]. apply Forall_cons_iff in F2 as [_ F2].
      assert (Keep : forall l, ~ In (k_key sk) (map fst l) -> Forall (fun kn => at_node h c (fst kn) (snd kn)) l -> Forall (fun kn => at_node h c2 (fst kn) (snd kn)) l).
      { intros l Nk Fl. rewrite Forall_forall in Fl |- *. intros [x nd] Hx. specialize (Fl _ Hx). cbn [fst snd] in *. assert (Ne : str_eqb x (k_key sk) = false) by (apply str_eqb_neq; intros ->; apply Nk, in_map_iff; exists (k_key sk, nd); auto).
        eapply at_node_keep; [rewrite M2, Ne; reflexivity| |exact Fl]. intros cj i Mx Hi. rewrite B2. apply nth_error_app1. eapply index_lt; eauto. }
      apply NoDup_remove_2 in Hl. apply Forall_app. split; [apply Keep; [intros X; apply Hl, in_or_app; auto|exact F1]|]. constructor; [|apply Keep; [intros X; apply Hl, in_or_app; auto|exact F2]].
      exists (Many (idxs ci ++ [List.length (c_body c)])), (ss ++ [(r, v)]). cbn [fst snd]. rewrite M2, str_eqb_refl. auto.
    + split; [|exact B2]. exists (S (S (S (n1 + n2)))). intros n prox sf val Hn. destruct n as [|n]; [lia|]. cbn [append kstr]. fold it1. rewrite pre_parsed by exact Pc.
      assert (Pr : contains n c (k_key sk) = Ok true). { destruct n as [|n]; [lia|]. cbn [contains]. rewrite M. destruct ci as [i|l]; [reflexivity|]. cbn [idxs] in E1. rewrite E1 by lia. reflexivity. }
      rewrite Pr. cbn [rbind negb]. clear Pr E1.
      assert (Va : validate_key n c2 (k_key sk) = Ok tt). { destruct n as [|n]; [lia|]. cbn [validate_key]. rewrite M2, str_eqb_refl. rewrite E2 by lia. reflexivity. }
      clear E2. destruct c as [body mm p tks d]. cbn [c_map c_parsed c_body] in *. subst p. rewrite M.
      replace (match ci with One x => x | Many l => last l 0 end) with (last (idxs ci) 0) by (destruct ci; reflexivity). rewrite El. cbn [is_table_or_aot is_table is_aot orb negb].
      assert (Ra : raw_append (Cont body mm true tks d) (Some sk) (ITable tc tm) = Ok c2).
      { subst c2. rewrite Et. cbn [add_more raw_append]. rewrite M. replace (last match ci with One x => [x] | Many l => l end 0) with (last (idxs ci) 0) by (destruct ci; reflexivity). rewrite El. cbn [is_table rbind].
        unfold dict_set. replace (existsb (str_eqb (k_key sk)) d) with true; [reflexivity|]. symmetry. apply existsb_in. destruct C as (_ & _ & _ & _ & Dm). cbn [c_map c_dict] in Dm. apply Dm. congruence. }
      clearbody c2 it1. subst it1. rewrite Ta. cbn [item_is_super]. replace (table_is_super lc lm) with true by (unfold table_is_super; rewrite Ls; reflexivity).
      replace (table_is_super tc tm) with true by (unfold table_is_super; rewrite Ts; reflexivity). rewrite T2. cbn [orb rbind negb andb]. rewrite Nat.ltb_irrefl. rewrite Ra. cbn [rbind].
      destruct val; [|reflexivity]. rewrite Va. reflexivity.
Qed.
(** * Reading a name that several statements describe *)
Lemma lines_valid h c t : proxies h -> lines h c t -> forall ks, exists n0, forall n, n0 <= n -> forall k, In k ks -> validate_key n c k = Ok tt.
Proof.
  intros Q Hl. induction ks as [|k ks (n1 & IH)]; [exists 0; intros n _ k []|]. destruct (map_get k (c_map c)) as [[i|l]|] eqn:M.
  1,3: exists (S n1); intros n Hn x [<-|Hx]; [destruct n as [|n]; [lia|]; cbn [validate_key]; rewrite M; reflexivity|apply IH; [lia|exact Hx]].
  destruct (lines_node _ _ _ _ _ Hl M) as ([v|m] & _ & A).
  - destruct A as (i & e & it & A & _). congruence.
  - destruct A as (ci & ss & A & G & Sh & P). rewrite M in A. injection A as <-. cbn [idxs] in G. destruct (Q c k l ss m G Sh P) as (ic & _ & _ & n2 & E2).
    exists (S (n1 + n2)). intros n Hn x [<-|Hx]; [destruct n as [|n]; [lia|]; cbn [validate_key]; rewrite M, E2 by lia; reflexivity|apply IH; [lia|exact Hx]].
Qed.
Lemma proxies_all h : proxies h.
Proof.
  induction h as [|h IH]; intros c k l ss t G Sh P.
  - destruct ss as [|s ss].
    + inversion G; subst. inversion P; subst. exists (empty_cont true). split; [reflexivity|]. split; [apply lines_empty|]. exists 1. intros n Hn. destruct n; [lia|reflexivity].
    + exfalso. inversion G as [|i ? l' ? (sk & it & _ & _ & N) _]; subst. inversion Sh as [|? ? L _]; subst. destruct (fst s); [congruence|cbn in L; lia].
  - cbn [pred].
    assert (F : forall l ss, group c k l ss -> short (S h) ss -> forall ic t0 t, c_parsed ic = true -> lines h ic t0 -> puts t0 ss t ->
      exists ic', c_parsed ic' = true /\ lines h ic' t /\ exists n0, forall n, n0 <= n ->
        fold_res (fun ic i => match nth_error (c_body c) i with
          | Some (_, ITable tc _) => fold_res (fun ic (kv : option skey * item) => append n Shared false ic (option_map KSingle (fst kv)) (snd kv) false) (c_body tc) ic
          | Some _ => Ok ic | None => Err IndexErrorE end) l ic = Ok ic').
    { clear -IH. intros l ss G. induction G as [|i s l ss (sk & it & E & D & N) G IHG]; intros Sh ic t0 t Pc Hl P.
      - inversion P; subst. exists ic. split; [exact Pc|]. split; [exact Hl|]. exists 0. reflexivity.
      - inversion Sh as [|? ? L1 L2]; subst. inversion P as [|? ns v t1 ? ? P1 P2]; subst. cbn [fst snd] in *.
        inversion D as [? ? ? Pl U Q1 Q2 Q3|? ? ? sk' it' m p tks D' ? ? ? Q1]; subst; [congruence|].
        destruct (add_stmt h IH ic t0 ns v t1 sk' it' Pc Hl L1 D' P1) as (ic1 & Pc1 & Hl1 & (n1 & E1) & _). destruct (IHG L2 ic1 t1 t Pc1 Hl1 P2) as (ic2 & Pc2 & Hl2 & n2 & E2).
        exists ic2. split; [exact Pc2|]. split; [exact Hl2|]. exists (n1 + n2). intros n Hn. cbn [fold_res]. rewrite E. cbn [c_body lone fold_res fst snd option_map]. rewrite E1 by lia. apply E2. lia. }
    destruct (F l ss G Sh (empty_cont true) [] t eq_refl (lines_empty h true) P) as (ic & Pc & Hl & n1 & E1). destruct (lines_valid h ic t IH Hl (map fst (c_map ic))) as (n2 & E2).
    exists ic. split; [exact Pc|]. split; [exact Hl|]. exists (S (n1 + n2)). intros n Hn. destruct n as [|n]; [lia|]. cbn [proxy]. rewrite E1 by lia. cbn [rbind]. specialize (E2 n ltac:(lia)).
    assert (V : forall l, (forall k, In k (map fst l) -> validate_key n ic k = Ok tt) -> fold_res (fun (_ : unit) (kv : str * cidx) => validate_key n ic (fst kv)) l tt = Ok tt).
    { induction l0 as [|[x y] l0 IHl]; intros Hv; [reflexivity|]. cbn [fold_res fst]. rewrite Hv by (left; reflexivity). apply IHl. intros z Hz. apply Hv. right. exact Hz. }
    rewrite V by exact E2. reflexivity.
Qed.
Lemma dict_of_app a b : dict_of (a ++ b) = dict_of a ++ dict_of b. Proof. apply map_app. Qed.
Lemma node_names l : node_value (Names l) = PDict (dict_of l).
Proof. cbn [node_value]. f_equal. unfold dict_of. apply map_ext. intros [k n]. reflexivity. Qed.
Lemma put_empty ns v t : put ns v [] t -> exists k r, ns = k :: r /\ ((r = [] /\ t = [(k, Value v)]) \/ (exists m, put r v [] m /\ t = [(k, Names m)])).
Proof.
  inversion 1 as [k v0 l Nk|k r v0 l m Nk Hm|k r v0 a m m' b Hm]; subst; cbn [app]; [exists k, []; auto|exists k, r; eauto 6|].
  destruct a; discriminate.
Qed.
Lemma seqopt_all {A B} (f : A -> option B) l r : Forall2 (fun x y => f x = Some y) l r -> seqopt (map f l) = Some r.
Proof. induction 1 as [|x y l r E F IH]; [reflexivity|]. cbn [map seqopt]. rewrite E, IH. reflexivity. Qed.
Lemma lines_uvals c t : c_dict c = map fst t -> Forall (fun kn => uval c (fst kn) = Some (node_value (snd kn))) t -> unwrap_cont c = Some (dict_of t).
Proof.
  intros D F. rewrite unwrap_cont_eq, D, map_map. apply seqopt_all. clear D. induction F as [|[k n] t E F IH]; [constructor|]. cbn [fst snd] in E. constructor; [|exact IH]. cbn [fst snd]. rewrite E. reflexivity.
Qed.
Lemma dent_unwrap ns v sk it : dent ns v sk it -> forall k r m, ns = k :: r -> put r v [] m -> unwrap it = Some (PDict (dict_of m)).
Proof.
  induction 1 as [sk it v P U|ns v sk sk' it' tm p tks D IH Dk A B]; intros k r m E Hp; injection E as <- <-; [apply put_ne in Hp; congruence|].
  rewrite unwrap_table. apply put_empty in Hp as (k & r & -> & [(-> & ->)|(m' & Hp & ->)]).
  - inversion D as [? ? ? P U|? ? ? ? ? ? ? ? D' ? ? ? Q1]; subst; [|apply dent_ne in D'; congruence].
    rewrite (lines_uvals _ [(k_key sk', Value v)]); [reflexivity|reflexivity|]. constructor; [|constructor]. unfold uval, lone. cbn [fst c_map map_get]. rewrite str_eqb_refl. exact U.
  - pose proof (dent_head _ _ _ _ D) as [r' Q]. injection Q as -> ->. rewrite (lines_uvals _ [(k_key sk', Names m')]); [reflexivity|reflexivity|]. constructor; [|constructor]. unfold uval, lone. cbn [fst snd c_map map_get]. rewrite str_eqb_refl. cbn [c_body nth_error]. rewrite node_names.
    eapply IH; [reflexivity|exact Hp].
Qed.
Lemma group_one c k i ss : group c k [i] ss -> exists s, ss = [s] /\ exists sk it, nth_error (c_body c) i = Some (Some sk, it) /\ dent (k :: fst s) (snd s) sk it.
Proof. inversion 1 as [|? s ? ss' (sk & it & E & D & _) G]; subst. inversion G; subst. exists s. split; [reflexivity|]. eauto. Qed.
Lemma lines_unwrap h : forall c t, lines h c t -> unwrap_cont c = Some (dict_of t).
Proof.
  induction h as [h IH] using lt_wf_ind. intros c t (C & D & F). apply lines_uvals; [exact D|]. rewrite Forall_forall in F |- *. intros [k [v|m]] Hx; specialize (F _ Hx); cbn [fst snd] in *; unfold uval.
  - destruct F as (i & e & it & M & E & U & _). rewrite M, E. exact U.
  - destruct F as (ci & ss & M & G & Sh & P). rewrite M, node_names. destruct ci as [i|l].
    + cbn [idxs] in G. apply group_one in G as ([ns v] & -> & sk & it & E & Dn). rewrite E. inversion P as [|? ? ? t1 ? ? P1 P2]; subst. inversion P2; subst. eapply dent_unwrap; [exact Dn|reflexivity|exact P1].
    + cbn [idxs] in G. destruct h as [|h].
      * destruct (proxies_all 0 c k l ss m G Sh P) as (ic & _ & _ & n0 & E). rewrite (proxy_any c l n0 ic) by (apply E; lia).
        assert (ss = []) as ->. { destruct ss as [|s ss]; [reflexivity|]. exfalso. inversion G as [|? ? l' ? (sk & it & _ & _ & N) _]; subst. inversion Sh as [|? ? L _]; subst. destruct (fst s); [congruence|cbn in L; lia]. }
        inversion G; subst. inversion P; subst. specialize (E (S n0) ltac:(lia)). cbn in E. injection E as <-. reflexivity.
      * destruct (proxies_all (S h) c k l ss m G Sh P) as (ic & _ & Hl & n0 & E). rewrite (proxy_any c l n0 ic) by (apply E; lia). cbn [pred] in Hl. rewrite (IH h ltac:(lia) ic m Hl). reflexivity.
Qed.
(** * Bodies that say the same *)
Definition alike (x y : option skey * item) : Prop :=
  fst x = fst y /\ is_table (snd x) = is_table (snd y) /\ (forall v, says (snd x) v -> says (snd y) v) /\ (forall ns v sk, dent ns v sk (snd x) -> dent ns v sk (snd y)).
Lemma alike_refl x : alike x x. Proof. repeat split; auto; apply H. Qed.
Lemma alike_nth b b' i x : Forall2 alike b b' -> nth_error b i = Some x -> exists y, nth_error b' i = Some y /\ alike x y.
Proof. intros H. revert i. induction H as [|a a' b b' Ha Hb IH]; intros [|i] E; cbn in E |- *; try discriminate; [inversion E; subst; eauto|auto]. Qed.
Lemma alike_back b b' i y : Forall2 alike b b' -> nth_error b' i = Some y -> exists x, nth_error b i = Some x /\ alike x y.
Proof. intros H. revert i. induction H as [|a a' b b' Ha Hb IH]; intros [|i] E; cbn in E |- *; try discriminate; [inversion E; subst; eauto|auto]. Qed.
Lemma alike_refls b : Forall2 alike b b. Proof. induction b; constructor; auto using alike_refl. Qed.
Lemma alike_ws k k' s f s' f' : k = k' -> alike (k, IWs s f) (k', IWs s' f').
Proof.
  intros ->. split; [reflexivity|]. split; [reflexivity|]. split; cbn [snd]; [intros v [X _]; discriminate X|]. intros ns v sk H. inversion H; subst. contradiction.
Qed.
Lemma alike_trivia k it t : alike (k, it) (k, set_trivia t it).
Proof. split; [reflexivity|]. split; [destruct it; reflexivity|]. split; cbn [snd]; intros; [apply says_trivia|apply dent_trivia]; assumption. Qed.
Lemma lines_alike h b b' m p p' tks tks' d t : Forall2 alike b b' -> lines h (Cont b m p tks d) t -> lines h (Cont b' m p' tks' d) t.
Proof.
  intros S ((M & F1 & F2) & D & U). cbn [c_body c_map c_dict] in *. split; [|split; [exact D|]].
  - split; [|split]; cbn [c_body c_map c_dict].
    + intros k ci H. destruct (M k ci H) as (A & B & C). split; [exact A|]. split; [exact B|]. eapply Forall_impl; [|exact C]. intros i (sk & v & E & K & T).
      destruct (alike_nth _ _ _ _ S E) as ([sk' v'] & E' & Q1 & Q2 & _). cbn in Q1, Q2. subst sk'. exists sk, v'. repeat split; auto. rewrite <- Q2. exact T.
    + intros i sk v E. destruct (alike_back _ _ _ _ S E) as ([sk' v'] & E' & Q1 & _). cbn in Q1. subst sk'. eauto.
    + exact F2.
  - eapply Forall_impl; [|exact U]. intros [k [v|t']] H; cbn [fst snd at_node c_map c_body] in *.
    + destruct H as (i & e & it & A & B & Sy). destruct (alike_nth _ _ _ _ S B) as ([e' it'] & E' & _ & _ & Q & _). exists i, e', it'. split; [exact A|]. split; [exact E'|]. apply Q, Sy.
    + destruct H as (ci & ss & A & G & Sh & P). exists ci, ss. split; [exact A|]. split; [|auto]. unfold group in *. cbn [c_body] in *. clear -S G. induction G as [|i s l ss (sk & it & E & D & N) G IH]; constructor; [|exact IH].
      destruct (alike_nth _ _ _ _ S E) as ([sk' it'] & E' & Q1 & _ & _ & Q2). cbn in Q1, Q2. subst sk'. exists sk, it'. auto.
Qed.
Lemma lines_parsing h c t : lines h c t -> lines h (parsing_cont false c) t.
Proof.
  destruct c as [body m p tks d]. cbn [parsing_cont]. apply lines_alike. induction body as [|[k v] b IH]; constructor; [|exact IH]. split; [reflexivity|]. split; [destruct v; reflexivity|].
  split; cbn [snd]; intros; [apply says_parsing|apply dent_parsing]; assumption.
Qed.
(** A new entry without a key. *)
Definition add_void (c : container) (i : item) : container := let 'Cont body m p tks d := c in Cont (body ++ [(None, i)]) m p tks d.
Lemma lines_void h c i t : lines h c t -> lines h (add_void c i) t.
Proof.
  intros (C & D & F). pose proof (fun k ci j => index_lt c k ci j C) as L. destruct c as [body m p tks d]. cbn [c_body c_map c_dict] in *. split; [|split; [exact D|]].
  - destruct C as [Cm (Cc & Cd)]. cbn [c_body c_map c_dict] in *. split; [|split]; cbn [add_void c_body c_map c_dict].
    + intros k ci M. destruct (Cm k ci M) as (A & B & K). split; [exact A|]. split; [exact B|]. rewrite Forall_forall in K |- *. intros j I. specialize (K j I).
      unfold keyed in *. destruct K as (sk & v & E & K). exists sk, v. split; [|exact K]. rewrite nth_error_app1; [exact E|]. eapply L; eauto.
    + intros j sk v E. assert (j < List.length body). { destruct (Nat.ltb_spec j (List.length body)); [assumption|]. rewrite nth_error_app2 in E by lia. destruct (j - List.length body) as [|[|?]]; discriminate. }
      rewrite nth_error_app1 in E by assumption. eapply Cc, E.
    + exact Cd.
  - eapply Forall_impl; [|exact F]. intros [k n]. cbn [fst snd]. apply at_node_keep; [reflexivity|]. intros ci j M I. cbn [add_void c_body c_map] in *. apply nth_error_app1. eapply L; eauto.
Qed.
(** * Containers during parsing *)
Definition grows (c : container) (t : list (str * node)) : Prop := c_parsed c = true /\ exists h, lines h c t.
Definition holds (c : container) (r : list (str * pyv)) : Prop := exists t, grows c t /\ r = dict_of t.
Lemma dict_fst t : map fst (dict_of t) = map fst t. Proof. unfold dict_of. rewrite map_map. reflexivity. Qed.
Lemma grows_empty : grows (empty_cont true) []. Proof. split; [reflexivity|]. exists 0. apply lines_empty. Qed.
Lemma holds_empty : holds (empty_cont true) []. Proof. exists []. split; [apply grows_empty|reflexivity]. Qed.
Lemma holds_unwrap c r : holds c r -> unwrap_cont c = Some r.
Proof. intros (t & (_ & h & H) & ->). eapply lines_unwrap, H. Qed.
Lemma holds_after c r : holds c r -> unwrap_cont (parsing_cont false c) = Some r.
Proof. intros (t & (_ & h & H) & ->). eapply lines_unwrap, lines_parsing, H. Qed.
Lemma holds_says c r m : holds c r -> says (ITable c m) (PDict r).
Proof. intros H. split; [rewrite unwrap_table, (holds_unwrap c r H); reflexivity|]. cbn [parsing_item]. rewrite unwrap_table, (holds_after c r H). reflexivity. Qed.
Lemma holds_absent c r k : holds c r -> ~ In k (map fst r) -> map_get k (c_map c) = None.
Proof. intros (t & (_ & h & H) & ->) N. rewrite dict_fst in N. eapply lines_absent; eauto. Qed.
Lemma holds_add c r k it v : holds c r -> ~ In (k_key k) (map fst r) -> says it v -> holds (add_new c k it) (r ++ [(k_key k, v)]).
Proof.
  intros (t & (P & h & H) & ->) N Sy. rewrite dict_fst in N. exists (t ++ [(k_key k, Value v)]). split; [|rewrite dict_of_app; reflexivity]. pose proof (lines_absent _ _ _ _ H N) as M. pose proof H as (C & _).
  split; [rewrite (proj1 (proj2 (add_new_facts c k it C M))); exact P|]. exists h. apply lines_add; assumption.
Qed.
Lemma append_hold {sf} n prox c r k it val : holds c r -> ~ In (k_key k) (map fst r) -> append (S (S n)) prox sf c (Some (KSingle k)) it val = Ok (add_new c k it).
Proof. intros H N. pose proof (holds_absent _ _ _ H N) as M. destruct H as (t & (P & h & (C & _)) & ->). apply append_absent; assumption. Qed.
Lemma cappend_hold {sf} c r k it v : holds c r -> ~ In (k_key k) (map fst r) -> says it v ->
  cappend sf c (Some (KSingle k)) it = Ok (add_new c k it) /\ holds (add_new c k it) (r ++ [(k_key k, v)]).
Proof.
  intros H N U. unfold cappend. destruct (app_fuel_pos c (Some (KSingle k)) it) as [n ->]. rewrite (append_hold _ _ c r) by assumption. split; [reflexivity|]. eapply holds_add; eauto.
Qed.
Lemma table_hold {sf} c r k it : holds c r -> ~ In (k_key k) (map fst r) -> table_raw_append sf c (Some (KSingle k)) it = Ok (add_new c k it).
Proof.
  intros H N. unfold table_raw_append. destruct (app_fuel_pos c (Some (KSingle k)) it) as [n ->]. rewrite (append_hold _ _ c r) by assumption. cbn [rbind option_map key_parts].
  rewrite add_map. reflexivity.
Qed.
Lemma holds_validate c r : holds c r -> validate_all c = Ok tt.
Proof.
  intros (t & (_ & h & H) & _). unfold validate_all. assert (G : forall l, fold_res (fun (_ : unit) (kv : str * cidx) => validate_key (app_fuel c None INull) c (fst kv)) l tt = Ok tt).
  { assert (E : exists n, app_fuel c None INull = S n /\ 5 * csize c + 1 <= n) by (unfold app_fuel; exists (8 * (csize c + isize INull + 0) + 7); split; lia). destruct E as (n & -> & Hn).
    induction l as [|kv l IH]; [reflexivity|]. cbn [fold_res]. replace (validate_key (S n) c (fst kv)) with (Ok tt : res unit); [exact IH|]. symmetry. cbn [validate_key].
    destruct (map_get (fst kv) (c_map c)) as [[i|q]|] eqn:M; [reflexivity| |reflexivity]. destruct (lines_node _ _ _ _ _ H M) as ([v|m] & _ & A).
    - destruct A as (i & e & it & A & _). congruence.
    - destruct A as (ci & ss & A & G & Sh & P). rewrite M in A. injection A as <-. cbn [idxs] in G. destruct (proxies_all h c _ q ss m G Sh P) as (ic & _ & _ & n2 & E2).
      rewrite (proxy_settle c q n2 n ic (csize c)); [reflexivity|apply csize_bh|exact Hn|apply E2; lia]. }
  apply G.
Qed.
Lemma grows_void c i t : grows c t -> grows (add_void c i) t.
Proof. intros (P & h & H). split; [destruct c; exact P|]. exists h. apply lines_void, H. Qed.
Lemma holds_void c i r : holds c r -> holds (add_void c i) r.
Proof. intros (t & H & ->). exists t. split; [apply grows_void, H|reflexivity]. Qed.
Lemma grows_alike b b' m p tks tks' d t : Forall2 alike b b' -> grows (Cont b m p tks d) t -> grows (Cont b' m p tks' d) t.
Proof. intros S (P & h & H). split; [exact P|]. exists h. eapply lines_alike; eauto. Qed.
Lemma holds_alike b b' m p tks tks' d r : Forall2 alike b b' -> holds (Cont b m p tks d) r -> holds (Cont b' m p tks' d) r.
Proof. intros S (t & H & ->). exists t. split; [eapply grows_alike; eauto|reflexivity]. Qed.
(** * Statements *)
Definition shape (K : key) : Prop := match K with KSingle _ => True | KDotted ks _ _ => 2 <= List.length ks end.
Lemma dotted_lone sep it v : plain it -> unwrap it = Some v -> forall rest, rest <> [] ->
  exists sk it' p tks, dotted_table rest sep it = lone sk it' p tks /\ dent (map k_key rest) v sk it'.
Proof.
  intros P U. induction rest as [|mid rest IH]; intros N; [congruence|]. destruct rest as [|r2 rest].
  - cbn [dotted_table map]. eexists (set_sep sep mid), it, _, _. split; [reflexivity|]. change (k_key mid) with (k_key (set_sep sep mid)). constructor; assumption.
  - destruct (IH ltac:(discriminate)) as (sk & it' & p & tks & E & D).
    change (dotted_table (mid :: r2 :: rest) sep it) with (singleton (set_dotted mid) (ITable (dotted_table (r2 :: rest) sep it) (super_meta (Some (k_key mid))))). rewrite E.
    eexists _, _, _, _. split; [reflexivity|]. change (map k_key (mid :: r2 :: rest)) with (k_key (set_dotted mid) :: map k_key (r2 :: rest)). constructor; [exact D|reflexivity..].
Qed.
Lemma key_dent K it v : shape K -> plain it -> unwrap it = Some v -> exists sk it', dent (map k_key (key_parts K)) v sk it' /\
  (forall n prox sf c val, exists n' val', n <= S n' /\ append n prox sf c (Some K) it val = append n' prox sf c (Some (KSingle sk)) it' val' \/ n = 0) /\ norm_entry (Some K) it = (Some sk, set_name (k_key sk) it').
Proof.
  intros Sh P U. destruct K as [sk|ks sep o].
  - exists sk, it. split; [constructor; assumption|]. split; [|reflexivity]. intros n prox sf c val. exists n, val. left. split; [lia|reflexivity].
  - cbn [shape key_parts] in *. destruct ks as [|nm [|s2 ks]]; cbn [List.length] in Sh; try lia. destruct (dotted_lone sep it v P U (s2 :: ks) ltac:(discriminate)) as (sk & it' & p & tks & E & D).
    exists (set_dotted nm), (ITable (dotted_table (s2 :: ks) sep it) (super_meta None)). split.
    + rewrite E. change (map k_key (nm :: s2 :: ks)) with (k_key (set_dotted nm) :: map k_key (s2 :: ks)). constructor; [exact D|reflexivity..].
    + split; [|reflexivity]. intros n prox sf c val. destruct n as [|n]; [exists 0, val; right; reflexivity|]. exists n, true. left. split; [lia|]. cbn [append]. replace (is_table_or_aot it) with false by (destruct it; try destruct P; reflexivity). reflexivity.
Qed.
Lemma put_head k r v t t2 : put (k :: r) v t t2 -> exists n, In (k, n) t2.
Proof. inversion 1; subst; eexists; apply in_or_app; right; left; reflexivity. Qed.
Lemma grows_put c t K it v t2 : grows c t -> shape K -> plain it -> unwrap it = Some v -> put (map k_key (key_parts K)) v t t2 ->
  exists c2, grows c2 t2 /\ (forall sf, cappend sf c (Some K) it = Ok c2) /\ (forall sf, table_raw_append sf c (Some K) it = Ok c2) /\ c_body c2 = c_body c ++ [norm_entry (Some K) it].
Proof.
  intros (Pc & h & Hl) Sh P U Hp. destruct (key_dent K it v Sh P U) as (sk & it' & D & A & Ne). set (ns := map k_key (key_parts K)) in *. set (h' := h + List.length ns).
  assert (Hl' : lines h' c t) by (eapply lines_up; [|exact Hl]; lia).
  destruct (add_stmt h' (proxies_all h') c t ns v t2 sk it' Pc Hl' ltac:(lia) D Hp) as (c2 & Pc2 & Hl2 & (n0 & E) & Bd).
  assert (E2 : forall sf val, append (app_fuel c (Some K) it) Own sf c (Some K) it val = Ok c2).
  { intros sf val. eapply (append_any Own c (Some K) it val (S (S n0))). destruct (A (S (S n0)) Own sf c val) as (n' & val' & [[L ->]|X]); [|discriminate]. apply E. lia. }
  exists c2. split; [split; [exact Pc2|exists h'; exact Hl2]|]. split; [intros sf; apply E2|]. split; [intros sf|rewrite Ne; exact Bd]. unfold table_raw_append. cbv zeta.
  destruct (append_fuel (app_fuel c (Some K) it) Own sf c (Some K) it false (le_n _)) as [_ B]. rewrite E2 in *. cbn [rbind option_map fine] in *.
  destruct (dent_head _ _ _ _ D) as [r Er]. subst ns. destruct (key_parts K) as [|k0 ks] eqn:Ek; [discriminate Er|]. cbn [map] in Hp, Er. destruct (put_head _ _ _ _ _ Hp) as [nd Hin].
  pose proof Hl2 as (C2 & D2 & F2). rewrite Forall_forall in F2. specialize (F2 _ Hin). cbn [fst snd] in F2. destruct nd as [w|m].
  - destruct F2 as (i & e & it2 & -> & _). reflexivity.
  - destruct F2 as (ci & ss & -> & G & Sh2 & P2). destruct ci as [i|l]; [reflexivity|]. cbn [idxs] in G. destruct (proxies_all h' c2 _ l ss m G Sh2 P2) as (ic & _ & _ & n2 & Ep).
    rewrite (proxy_settle c2 l n2 _ ic _ B); [reflexivity| |apply Ep; lia]. unfold app_fuel. rewrite Ek. lia.
Qed.
