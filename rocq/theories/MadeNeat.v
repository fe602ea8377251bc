(** MadeNeat: the items that tomlkit makes of Python values are neat (C43). *)
From Verif Require Import Base Source Utils Items Container Arrays Parser Api Lemmas Wf Errors Render Consist OMap ContOps ContText PyVal PyItem ItemConv DumpValue Numbers Dates DumpText DumpCont DumpRender Grammar Denote Snug CompValue Written Document Edit Changes Possible Neat EditNeat MadeSnug.
From Coq Require Import ZifyBool ZifyNat ZifyN Permutation.
Open Scope nat_scope.

(** * New values *)
Lemma made_item pk v : py_fine v -> tablish v = false ->
  exists i v', py_item pk v = Ok i /\ plain i /\ item_trivia i = default_trivia /\ snug i v' /\ pyeq v v' /\ forall t, item_string (set_trivia t i) = item_string i.
Proof. intros H T. destruct (proj1 (made_both v H) pk (or_intror T)) as (i & E & P & Tr & U & v' & Sn & Q). exists i, v'. auto 10. Qed.
Lemma tidy_default : tidy default_trivia.
Proof. split; [constructor|]. split; exists [], [], [10%N]; (split; [reflexivity|]; split; [constructor|]; split; [left; reflexivity|left; reflexivity]). Qed.
Lemma new_line k i v t : plain i -> snug i v -> (forall u, item_string (set_trivia u i) = item_string i) -> tidy t -> nline (Some (skey_of_str k), set_trivia t i) (Some ([k], v)).
Proof.
  intros P D S T. pose proof (nl_plain (skey_of_str k) (set_trivia t i) v) as H. rewrite skey_of_str_key in H. apply H; [apply plain_set_trivia, P|apply snug_trivia; [exact P|exact S|exact D]|reflexivity|apply skey_name|apply sep_space|rewrite plain_set_back by exact P; exact T|]. intros u. rewrite S. destruct i; try destruct P; apply S.
Qed.
Lemma old_line sk old i v v0 : plain i -> item_trivia i = default_trivia -> snug i v -> (forall u, item_string (set_trivia u i) = item_string i) ->
  nline (Some sk, old) (Some ([k_key sk], v0)) -> plain old -> nline (Some sk, copy_trivia i old) (Some ([k_key sk], v)).
Proof.
  intros P Tr D S H Po. inversion H as [|sk' it x Pl Dn Kd N Sp T|]; subst; [|destruct Po].
  assert (E : copy_trivia i old = set_trivia (item_trivia old) i).
  { unfold copy_trivia. rewrite Tr. cbn [tr_cws tr_comment default_trivia or_str]. destruct i; try destruct P; destruct (item_trivia old); reflexivity. }
  rewrite E. constructor; [apply plain_set_trivia, P|apply snug_trivia; [exact P|exact S|exact D]|exact Kd|exact N|exact Sp|rewrite plain_set_back by exact P; exact T|]. intros u. rewrite S. destruct i; try destruct P; apply S.
Qed.

Lemma ok_parts c : ok_cont c -> consistent c /\ c_parsed c = false /\ Forall (fun kv => ok_item (snd kv)) (c_body c).
Proof. intros [c0 C P F]. auto. Qed.
Lemma has_plain_at x e y : plain (snd e) -> has_plain (x ++ e :: y) = true.
Proof. intros P. unfold has_plain. rewrite existsb_app. cbn [existsb]. destruct e as [k i]. cbn [snd] in *. destruct i; try destruct P; cbn; rewrite ?orb_true_r; reflexivity. Qed.
Definition keyed_in (es : list entry) : Prop := exists e, In e es /\ fst e <> None.
(** * Into a table and out again *)
Record table_open (tops path : list str) (pfx : option str) (sk : skey) (c : container) (m : tmeta) (b1 b2 : list entry) (d : list (str * pyv)) : Prop := {
  to_dot : k_dotted sk = false; to_name : name_means (k_orig sk) (k_key sk); to_aot : tm_aot m = false; to_tidy : tidyh (tm_trivia m); to_key : key_means (table_key m sk pfx) (path ++ [k_key sk]);
  to_tops : headless_ok tops (k_key sk) m b1 b2;
  to_body : c_body c = b1 ++ b2; to_neat : nbody tops (path ++ [k_key sk]) (Some (table_key m sk pfx)) b1 b2 d }.
Lemma open_table tops path pfx sk c m v : ntable tops path pfx sk (ITable c m) v -> exists b1 b2 d, v = PDict d /\ table_open tops path pfx sk c m b1 b2 d.
Proof.
  intros H. inversion H as [? ? ? ? ? ? b1 b2 d Kd Nm Ta Sh Ti Km Su B Nb|? ? ? ? ? ? l Kd Nm Ta Ts Hp Ti Km Nt Nl Ne Nd|]; subst.
  - exists b1, b2, d. split; [reflexivity|]. split; assumption.
  - exists [], (c_body c), l. split; [reflexivity|]. split; try assumption; [|reflexivity|].
    + intros _. split; [exact Nt|]. split; [constructor|]. intros _. destruct l as [|[k x] l]; [contradiction|]. destruct (proj1 (ntables_keys _ _ _ _ _ Nl k) (or_introl eq_refl)) as (e & I & s & E & _). exists e. split; [exact I|congruence].
    + apply (nb tops (path ++ [k_key sk]) (Some (table_key m sk pfx)) [] (c_body c) [] l); [constructor|exact Nl|exact Nd].
Qed.
Lemma skips_lines es l ps : Forall void_entry es -> nlines l es ps -> ps = l.
Proof. intros F. revert l. induction F as [|e es H _ IH]; intros l N; inversion N as [|? ? ? ? He|? names v ? ? ? ? He]; subst; [reflexivity|eauto|]. pose proof (unkeyed_line _ (proj1 H) _ He). discriminate. Qed.
Lemma skips_tables tops path pfx es es' l p ps : Forall void_entry es -> nlines p es ps -> ntables tops path pfx es' l -> ntables tops path pfx (es ++ es') l.
Proof.
  intros F. revert p. induction F as [|e es H _ IH]; intros p N T; [exact T|]. cbn [app]. inversion N as [|? ? ? ? He Hr|? names v ? ? ? ? He]; subst; [|pose proof (unkeyed_line _ (proj1 H) _ He); discriminate].
  apply nt_skip; [exact H|inversion He; assumption|eauto].
Qed.
Lemma super_child c m : consistent c -> tm_super m = None -> table_is_super c m = true -> exists e, In e (c_body c) /\ fst e <> None /\ is_table_or_aot (snd e) = true.
Proof.
  intros C Es H. unfold table_is_super in H. rewrite Es in H. destruct (c_dict c) as [|k [|? ?]]; try discriminate. destruct (map_get k (c_map c)) as [[i|]|] eqn:M; try discriminate.
  destruct (get_one _ _ _ C M) as (sk & v & N & _). rewrite N in H. exists (Some sk, v). split; [eapply nth_error_In, N|]. split; [discriminate|exact H].
Qed.
Lemma close_table tops path pfx sk c m b1 b2 d : consistent c -> table_open tops path pfx sk c m b1 b2 d -> ntable tops path pfx sk (ITable c m) (PDict d).
Proof.
  intros C [Kd Nm Ta Ti Km Su B Nb]. destruct (shown c m) eqn:Sh; [eapply nt_shown; eassumption|]. unfold shown in Sh. apply orb_false_iff in Sh as [Sh Hp]. apply negb_false_iff in Sh.
  assert (Es : tm_super m <> Some false). { intros X. unfold table_is_super in Sh. rewrite X in Sh. discriminate. }
  destruct (Su Es) as (Nt & Fb & Ke). assert (Fn : Forall void_entry b1).
  { rewrite B in Hp. rewrite Forall_forall in *. intros f If. destruct (Fb _ If) as [X|[_ X]]; [exact X|]. apply in_split in If as (x & y & ->). rewrite <- app_assoc in Hp. cbn [app] in Hp. rewrite has_plain_at in Hp by exact X. discriminate. }
  assert (Kb : keyed_in b2).
  { destruct (tm_super m) as [[|]|] eqn:Em; [|contradiction|].
    { destruct (Ke eq_refl) as (e & Ie & Ne). apply in_app_iff in Ie as [Ie|Ie]; [|exists e; auto]. rewrite Forall_forall in Fn. destruct (Fn _ Ie) as [X _]. contradiction. }
    destruct (super_child c m C Em Sh) as (e & Ie & Ne & _). rewrite B in Ie. apply in_app_iff in Ie as [Ie|Ie]; [|exists e; auto].
    rewrite Forall_forall in Fn. destruct (Fn _ Ie) as [X _]. contradiction. }
  destruct Kb as (e & Ie & Ne). inversion Nb as [? ? ? ? ? ps l H1 H2 Nd]; subst. pose proof H1 as H3. rewrite (skips_lines _ _ _ Fn H1) in *. cbn [dict_of map app] in *. apply nt_hidden; try assumption.
  - rewrite B. eapply skips_tables; eassumption.
  - intros ->. destruct e as [[s|] w]; [|cbn in Ne; congruence]. apply (proj2 (ntables_keys _ _ _ _ _ H2 (k_key s))). exists (Some s, w). split; [exact Ie|exists s; auto].
Qed.

(** * Tables made of dicts *)
Definition avoids (tops : list str) (v : pyv) : Prop := forall t, In t tops -> ~ In t (dict_names v).
Definition sub_tops (tops path : list str) (k : str) (v : pyv) : list str := match v, path with PList _, [] => k :: tops | _, _ => tops end.
Lemma avoids_entry tops kvs k x : avoids tops (PDict kvs) -> In (k, x) kvs -> avoids tops x /\ (is_dict x = true -> ~ In k tops).
Proof.
  intros H I. split.
  - intros t Ht X. apply (H t Ht). cbn [dict_names]. apply in_flat_map. exists (k, x). split; [exact I|]. apply in_or_app. right. exact X.
  - intros D X. apply (H k X). cbn [dict_names]. apply in_flat_map. exists (k, x). split; [exact I|]. rewrite D. left. reflexivity.
Qed.
Lemma avoids_elem tops l x : avoids tops (PList l) -> In x l -> avoids tops x.
Proof. intros H I t Ht X. apply (H t Ht). cbn [dict_names]. apply in_flat_map. exists x. auto. Qed.
(** The item [w] is the new item [i], put somewhere. *)
Inductive variant : item -> item -> Prop :=
  | va_table c m m' : tm_aot m' = false -> tm_super m' = None -> tm_disp m' = None -> tidyh (tm_trivia m') -> variant (ITable c m) (ITable c m')
  | va_push c m m' : tm_aot m' = false -> tm_super m' = None -> tm_disp m' = None -> tidyh (tm_trivia m') -> variant (ITable c m) (table_push_ws c m')
  | va_aot x l n p t n' p' t' (b : bool) : variant (IAoT (x :: l) n p t) (IAoT ((if b then nl_indent x else x) :: l) n' p' t').
(** What becomes of a table value, and of any other. *)
Definition TN (x : pyv) (i : item) : Prop := tabv i /\ ok_item i /\ exists v', pyeq x v' /\
  forall tops path pfx sk w, pmeans path pfx -> k_dotted sk = false -> name_means (k_orig sk) (k_key sk) -> (is_dict x = true -> ~ In (k_key sk) tops) -> avoids (sub_tops tops path (k_key sk) x) x ->
    variant i w -> ntable tops path pfx sk w v'.
Definition PN (x : pyv) (i : item) : Prop := plainv i /\ exists v', pyeq x v' /\ snug i v' /\ forall t, item_string (set_trivia t i) = item_string i.
Definition nrel (kv : str * pyv) (ki : str * item) : Prop := fst ki = fst kv /\ (tablish (snd kv) = false -> PN (snd kv) (snd ki)) /\ (tablish (snd kv) = true -> TN (snd kv) (snd ki)).
Lemma nrel_made kvs its : Forall2 nrel kvs its -> Forall (fun ki => madev (snd ki)) its /\ map fst its = map fst kvs.
Proof.
  induction 1 as [|[k x] [k' i] kvs its (A & B & C) F [IH1 IH2]]; [split; constructor|]. cbn [fst snd map] in *. subst k'. split; [|congruence]. constructor; [|exact IH1]. cbn [snd].
  destruct (tablish x); [right; apply (C eq_refl)|left; apply (B eq_refl)].
Qed.
Lemma made_line k i v : plainv i -> snug i v -> (forall t, item_string (set_trivia t i) = item_string i) -> nline (ent (k, i)) (Some ([k], v)).
Proof.
  intros [P Tr] D St. pose proof (new_line k i v default_trivia P D St tidy_default) as H. unfold ent. cbn [fst snd]. replace (set_trivia default_trivia i) with i in H; [exact H|]. rewrite <- Tr. destruct i; try destruct P; reflexivity.
Qed.
Lemma made_lines kvs its : Forall2 nrel kvs its -> NoDup (map fst kvs) -> forall ps0, (forall k, In k (map fst kvs) -> ~ In k (map fst ps0)) -> exists ps,
  nlines ps0 (map ent (plains its)) (ps0 ++ ps) /\ Forall2 eqd (filter (fun kv => negb (tablish (snd kv))) kvs) (dict_of ps) /\ Forall bare_entry (map ent (plains its)).
Proof.
  induction 1 as [|[k x] [k' i] kvs its (A & B & C) F IH]; intros Nd ps0 Np; cbn [plains filter fst snd map] in *; [exists []; rewrite app_nil_r; split; [constructor|split; constructor]|]. subst k'. apply NoDup_cons_iff in Nd as [N1 N2].
  destruct (tablish x) eqn:Tx; cbn [negb].
  - destruct (C eq_refl) as [T _]. rewrite (tabv_table i T). cbn [app]. apply IH; [exact N2|]. intros k0 Hk0. apply Np. right. exact Hk0.
  - destruct (B eq_refl) as (P & v' & Q & D & St). rewrite (plain_not_table i (proj1 P)). cbn [app map].
    destruct (IH N2 (ps0 ++ [(k, Value v')])) as (ps & L1 & L2 & L3).
    { intros k0 H. rewrite map_app, in_app_iff. intros [X|[X|[]]]; [apply (Np k0 (or_intror H) X)|cbn [fst] in X; subst; contradiction]. }
    exists ((k, Value v') :: ps). split; [|split].
    + eapply ns_pair; [apply made_line; eassumption|constructor; apply Np; left; reflexivity|]. rewrite <- app_assoc in L1. exact L1.
    + cbn [dict_of map fst snd node_value]. constructor; [split; [reflexivity|exact Q]|exact L2].
    + constructor; [right; split; [discriminate|exact (proj1 P)]|exact L3].
Qed.
Lemma head_tidy (b : bool) : tidyh (mkTrivia (DumpDoc.blank b) [] [] [chLF]).
Proof.
  split; [destruct b; repeat constructor|]. split; exists [], [], [10%N]; (split; [reflexivity|]; split; [constructor|]; split; left; reflexivity).
Qed.
Lemma dress_variant b k i : tabv i -> variant i (dress b k i).
Proof.
  intros [_ T]. destruct i as [ | | | | | |tc tm|L n q t]; try (exfalso; exact T); cbn [dress]; [apply va_table; reflexivity || apply head_tidy|]. destruct L as [|x L]; [destruct T|]. apply va_aot.
Qed.
Lemma push_consistent c m : consistent c -> match table_push_ws c m with ITable c' m2 => m2 = m /\ consistent c' /\ c_body c' = c_body c ++ [(None, IWs [chLF] false)] /\ c_parsed c' = c_parsed c | _ => False end.
Proof.
  intros C. destruct c as [body cm p tks d]. cbn [table_push_ws]. split; [reflexivity|]. split; [|split; reflexivity]. destruct C as [M [F D]]. cbn [c_map c_body c_dict] in *. split; [|split; [|exact D]]; cbn [c_map c_body].
  - intros k ci E. destruct (M k ci E) as (A & B & X). split; [exact A|]. split; [exact B|]. eapply Forall_impl; [|exact X]. intros j (sk & w & Nj & K). exists sk, w. split; [|exact K]. rewrite nth_error_app1; [exact Nj|]. apply nth_error_Some. congruence.
  - intros j sk w E. destruct (Nat.lt_ge_cases j (List.length body)) as [L|G]; [rewrite nth_error_app1 in E by exact L; eapply F, E|]. rewrite nth_error_app2 in E by exact G. destruct (j - List.length body) as [|[|?]]; discriminate.
Qed.
Lemma variant_ok i w : variant i w -> ok_item i -> ok_item w.
Proof.
  intros V O. destruct V as [c m m' A1 A2 A3 A4|c m m' A1 A2 A3 A4|x l n p t n' p' t' b]; inversion O as [? ? Oc|? ? ? ? Fo|? X]; subst; try discriminate.
  - constructor. exact Oc.
  - inversion Oc as [c0 C P F]; subst. pose proof (push_consistent c m' C) as H. destruct (table_push_ws c m') as [ | | | | | |c2 m2| ]; try destruct H. destruct H0 as (C2 & B2 & P2). constructor. constructor; [exact C2|congruence|]. rewrite B2. apply Forall_app. split; [exact F|]. constructor; [apply oi_other; reflexivity|constructor].
  - constructor. apply Forall_cons_iff in Fo as [F1 F2]. constructor; [|exact F2]. destruct b; [|exact F1]. destruct x. exact F1.
Qed.
Lemma made_tables kvs its : Forall2 nrel kvs its -> forall b, exists l, Forall2 eqd (filter (fun kv => tablish (snd kv)) kvs) l /\ Forall (fun ki => ok_item (snd ki)) (dressed b its) /\
  forall tops path pfx, pmeans path pfx -> path <> [] -> (forall k x, In (k, x) kvs -> avoids tops x /\ (is_dict x = true -> ~ In k tops)) -> ntables tops path pfx (map ent (dressed b its)) l.
Proof.
  induction 1 as [|[k x] [k' i] kvs its (A & B & C) F IH]; intros b; cbn [dressed filter fst snd map] in *; [exists []; split; [constructor|split; [constructor|intros; constructor]]|]. subst k'.
  destruct (IH true) as (l & L1 & L2 & L3). destruct (tablish x) eqn:Tx.
  - destruct (C eq_refl) as (T & O & v' & Q & H). rewrite (tabv_table i T). cbn [app map]. exists ((k, v') :: l). split; [constructor; [split; [reflexivity|exact Q]|exact L1]|]. split.
    + constructor; [|exact L2]. cbn [snd]. eapply variant_ok; [apply dress_variant, T|exact O].
    + intros tops path pfx Hp Ne Av. unfold ent at 1. cbn [fst snd]. rewrite <- (skey_of_str_key k) at 2. apply nt_cons; [|apply L3; auto; intros k0 x0 H0; apply Av; right; exact H0].
      destruct (Av k x (or_introl eq_refl)) as [Av1 Av2]. apply H; auto using dress_variant; rewrite ?skey_of_str_key; auto; [apply skey_name|]. unfold sub_tops. destruct x; try exact Av1. destruct path; [contradiction|exact Av1].
  - destruct (B eq_refl) as (P & _). rewrite (plain_not_table i (proj1 P)). cbn [app]. exists l. split; [exact L1|]. split; [exact L2|]. intros tops path pfx Hp Ne Av. apply L3; auto. intros k0 x0 H0. apply Av. right. exact H0.
Qed.
(** A container made of a dict. *)
Definition CN (kvs : list (str * pyv)) (c : container) : Prop := ok_cont c /\ exists b1 b2 l1 d, c_body c = b1 ++ b2 /\ Forall bare_entry b1 /\ Permutation kvs l1 /\ Forall2 eqd l1 d /\
  forall tops path pfx, pmeans path pfx -> path <> [] -> avoids tops (PDict kvs) -> nbody tops path pfx b1 b2 d.
Lemma eqd_keys a b : Forall2 eqd a b -> map fst b = map fst a.
Proof. induction 1 as [|x y a b [E _] _ IH]; [reflexivity|]. cbn [map]. congruence. Qed.
Lemma made_cont kvs its : Forall2 nrel kvs its -> NoDup (map fst kvs) -> exists c, build (empty_cont false) its = Ok c /\ CN kvs c.
Proof.
  intros R Nd. destruct (nrel_made kvs its R) as [M Ek]. destruct (made_body its M) as (c & E & Hb & _ & Cc & Pc); [rewrite Ek; exact Nd|]. exists c. split; [exact E|].
  destruct (made_lines kvs its R Nd []) as (ps & L1 & L2 & L3); [intros k _ []|]. destruct (made_tables kvs its R false) as (l & T1 & T2 & T3). split.
  - constructor; [exact Cc|exact Pc|]. rewrite Hb. apply Forall_app. split; apply Forall_map; [|eapply Forall_impl; [|exact T2]; intros [k i] H; exact H].
    clear -M. induction M as [|[k i] its H F IH]; [constructor|]. cbn [plains snd] in *. destruct H as [H|H]; [rewrite (plain_not_table i (proj1 H))|rewrite (tabv_table i H)]; cbn [app]; [constructor; [apply oi_other, plain_not_table, H|exact IH]|exact IH].
  - exists (map ent (plains its)), (map ent (dressed false its)), (filter (fun kv => negb (tablish (snd kv))) kvs ++ filter (fun kv => tablish (snd kv)) kvs), (dict_of ps ++ l).
    split; [exact Hb|]. split; [exact L3|]. split; [apply filter_split|]. split; [apply Forall2_app; assumption|]. intros tops path pfx Hp Ne Av. constructor; [exact L1|apply T3; auto; intros k x Hx; apply (avoids_entry tops kvs k x Av Hx)|].
    rewrite map_app, (eqd_keys _ _ L2), (eqd_keys _ _ T1), <- map_app. eapply Permutation_NoDup; [|exact Nd]. apply Permutation_map, filter_split.
Qed.
Lemma nodup_pyeq kvs l1 d : Permutation kvs l1 -> Forall2 eqd l1 d -> pyeq (PDict kvs) (PDict d).
Proof. intros P F. eapply pe_dict; eassumption. Qed.
Lemma dict_neat kvs c : CN kvs c -> tabv (ITable c (mkTM default_trivia false None None None)) -> TN (PDict kvs) (ITable c (mkTM default_trivia false None None None)).
Proof.
  intros (O & b1 & b2 & l1 & d & Hb & Fb & Pm & F2 & Nb) T. split; [exact T|]. split; [constructor; exact O|]. exists (PDict d). split; [eapply nodup_pyeq; eassumption|]. intros tops path pfx sk w Hp Kd Nm Nk Av V.
  destruct (ok_parts c O) as (Cc & _). assert (Km : key_means (prefixed pfx (k_orig sk)) (path ++ [k_key sk])) by (apply key_means_snoc; [exact Hp|exact Nm]).
  assert (Nb' : nbody tops (path ++ [k_key sk]) (Some (prefixed pfx (k_orig sk))) b1 b2 d) by (apply Nb; [exact Km|destruct path; discriminate|exact Av]).
  assert (Ho : forall m', tm_super m' = None -> forall e, headless_ok tops (k_key sk) m' b1 e). { intros m' Es e _. split; [apply Nk; reflexivity|]. split; [exact Fb|]. congruence. }
  inversion V as [? ? m' A1 A2 A3 A4|? ? m' A1 A2 A3 A4|]; subst; (assert (Et : table_key m' sk pfx = prefixed pfx (k_orig sk)) by (unfold table_key; rewrite A3; reflexivity)).
  - apply (close_table _ _ _ _ _ _ b1 b2 d Cc). split; try assumption; rewrite ?Et; auto.
  - pose proof (push_consistent c m' Cc) as H. destruct (table_push_ws c m') as [ | | | | | |c2 m2| ]; try destruct H. subst m2. destruct H0 as (C2 & B2 & P2).
    apply (close_table _ _ _ _ _ _ b1 (b2 ++ [(None, IWs [chLF] false)]) d C2). split; try assumption; rewrite ?Et; auto; [rewrite B2, Hb, <- app_assoc; reflexivity|].
    destruct Nb' as [tops' path' pfx' c1 c2' ps l H1 H2 Nd]. constructor; [exact H1| |exact Nd]. rewrite <- (app_nil_r l). apply ntables_app; [exact H2|]. apply nt_skip; [repeat split|apply (lines_voids [10%N]); repeat constructor|constructor].
Qed.
(** Elements of an array of tables. *)
Definition EN (d : pyv) (x : tab) : Prop := exists kvs c, d = PDict kvs /\ x = (c, elm false) /\ CN (split_dicts kvs) c.
Lemma split_avoids tops kvs : avoids tops (PDict kvs) -> avoids tops (PDict (split_dicts kvs)).
Proof.
  intros H t Ht X. apply (H t Ht). cbn [dict_names] in *. apply in_flat_map in X as (kv & I & X). apply in_flat_map. exists kv. split; [|exact X]. eapply Permutation_in; [apply Permutation_sym, filter_split|exact I].
Qed.
Lemma elems_neat l xs : Forall2 EN l xs -> exists ds, Forall2 pyeq l (map PDict ds) /\ forall b, Forall (fun x => ok_cont (fst x)) (aotl b xs) /\
  forall tops path key, key_means key path -> path <> [] -> avoids tops (PList l) -> nelems tops path key (aotl b xs) ds.
Proof.
  induction 1 as [|v x l xs (kvs & c & -> & -> & (O & b1 & b2 & l1 & d & Hb & Fb & Pm & F2 & Nb)) F (ds & D1 & D2)]; [exists []; split; [constructor|]; intros b; split; [constructor|intros; constructor]|].
  exists (d :: ds). split; [constructor; [eapply nodup_pyeq; [|exact F2]; eapply Permutation_trans; [apply filter_split|exact Pm]|exact D1]|]. intros b. cbn [aotl]. destruct (D2 (cont_nonempty (fst (c, elm false)))) as [D3 D4]. split.
  - constructor; [destruct b; exact O|exact D3].
  - intros tops path key Hk Ne Av. replace (if b then nl_indent (c, elm false) else (c, elm false)) with (c, elm b) by (destruct b; reflexivity). econstructor; [apply head_tidy|exact Hk|exact Hb| |].
    + apply Nb; [exact Hk|exact Ne|]. apply split_avoids. eapply avoids_elem; [exact Av|left; reflexivity].
    + apply D4; [exact Hk|exact Ne|]. intros t Ht X. apply (Av t Ht). cbn [dict_names flat_map]. apply in_or_app. right. exact X.
Qed.
Lemma aot_neat l xs : l <> [] -> Forall2 EN l xs -> tabv (aot_of xs) -> TN (PList l) (aot_of xs).
Proof.
  intros Ne F2 T. split; [exact T|]. destruct (elems_neat l xs F2) as (ds & D1 & D2). assert (En : aot_of xs = IAoT (aotl false xs) None false aot_trivia).
  { unfold aot_of, aot_make. rewrite aot_fold by (clear -F2; induction F2 as [|d x l xs (kvs & c & -> & -> & _) G IH]; [constructor|constructor; [reflexivity|exact IH]]). reflexivity. }
  rewrite En in *. split; [constructor; apply D2|]. exists (PList (map PDict ds)). split; [apply pe_list, D1|]. intros tops path pfx sk w Hp Kd Nm _ Av V. destruct F2 as [|v x l xs (kvs & c & -> & -> & Hc) F2]; [congruence|].
  assert (Ed : exists b n p t, w = IAoT (aotl b ((c, elm false) :: xs)) n p t). { inversion V as [| |? ? ? ? ? n' p' t' b]; subst. exists b, n', p', t'. destruct b; reflexivity. }
  destruct Ed as (b & n & p & t & ->). apply nt_aot; [exact Kd|exact Nm|intros ->; inversion D1|]. apply D2; [apply key_means_snoc; [exact Hp|exact Nm]|destruct path; discriminate|]. unfold sub_tops in Av. destruct path; exact Av.
Qed.

(** * Every value *)
Lemma made_value v : py_fine v -> tablish v = false -> forall pk, exists i, py_item pk v = Ok i /\ PN v i.
Proof. intros H T pk. destruct (made_item pk v H T) as (i & v' & E & P & Tr & D & Q & St). exists i. split; [exact E|]. split; [split; assumption|]. exists v'. auto. Qed.
Definition NV (v : pyv) : Prop := forall pk, pk_inline pk = false -> tablish v = true -> exists i, py_item pk v = Ok i /\ TN v i.
Lemma made_nrel kvs : Forall (fun kv => py_fine (snd kv)) kvs -> Forall (fun kv => NV (snd kv)) kvs -> Forall (fun kv => exists i, py_item PkTable (snd kv) = Ok i /\ nrel kv (fst kv, i)) kvs.
Proof.
  intros F1 F2. rewrite Forall_forall in *. intros [k x] I. specialize (F1 _ I). specialize (F2 _ I). cbn [fst snd] in *. destruct (tablish x) eqn:Tx.
  - destruct (F2 PkTable eq_refl Tx) as (i & E & T). exists i. split; [exact E|]. split; [reflexivity|]. cbn [fst snd]. rewrite Tx. split; [discriminate|auto].
  - destruct (made_value x F1 Tx PkTable) as (i & E & P). exists i. split; [exact E|]. split; [reflexivity|]. cbn [fst snd]. rewrite Tx. split; [auto|discriminate].
Qed.
Lemma made_elem kvs : NoDup (map fst kvs) -> Forall (fun kv => exists i, py_item PkTable (snd kv) = Ok i /\ nrel kv (fst kv, i)) kvs -> exists c, elem_item false (PDict kvs) = Ok (ITable c (elm false)) /\ EN (PDict kvs) (c, elm false).
Proof.
  intros Nd F. cbn [elem_item dict_parent]. destruct (mapr_forall2 (fun (kv : str * pyv) (bi : bool * (str * item)) => fst bi = is_dict (snd kv) /\ nrel kv (snd bi))
     (fun kv : str * pyv => let* i := py_item PkTable (snd kv) in Ok (is_dict (snd kv), (fst kv, bare_trail false i))) kvs) as (its & -> & F2).
  { eapply Forall_impl; [|exact F]. intros [k x] (i & E & R). cbn [fst snd] in *. rewrite E. exists (is_dict x, (k, i)). split; [reflexivity|]. split; [reflexivity|exact R]. }
  cbn [rbind]. apply (dl_forall2 nrel) in F2. destruct (made_cont _ _ F2 (split_nodup kvs Nd)) as (c & -> & M). exists c. split; [reflexivity|]. exists kvs, c. auto.
Qed.
Definition kids (v : pyv) : Prop := match v with PDict kvs => NoDup (map fst kvs) /\ Forall (fun kv => exists i, py_item PkTable (snd kv) = Ok i /\ nrel kv (fst kv, i)) kvs | _ => True end.
Lemma all_neat v : py_fine v -> NV v /\ kids v.
Proof.
  induction v as [s|z|b|f|d|t|d|l IH|kvs IH] using pyv_rect2; intros H; try (split; [intros pk _ T; discriminate T|exact I]).
  - split; [|exact I]. intros pk Hp T. destruct (proj2 (proj1 (all_made _ (fine_ok _ H))) pk Hp T) as (i & E & Ti & _). exists i. split; [exact E|].
    assert (Fl : Forall py_fine l) by (inversion H as [? X|? X|]; subst; [destruct X|exact X]). assert (Wa : wants_aot pk l = true). { unfold wants_aot. cbn [tablish] in T. destruct l; [discriminate|]. rewrite T. destruct pk; try discriminate Hp; reflexivity. }
    assert (Ne : l <> []) by (destruct l; [discriminate T|discriminate]). rewrite py_item_list in E. cbv zeta in E. rewrite Wa in E. cbn [negb] in E.
    destruct (mapr_forall2 (fun v i => exists c, i = ITable c (elm false) /\ EN v (c, elm false)) (elem_item false) l) as (its & E2 & F2).
    { assert (D : forallb is_dict l = true) by (destruct l; [discriminate T|exact T]). rewrite forallb_forall in D. rewrite Forall_forall in *. intros v Hin. specialize (D _ Hin). destruct (IH _ Hin (Fl _ Hin)) as [_ K]. destruct v as [ | | | | | | | |kvs]; try discriminate D.
      destruct K as [Nd K]. destruct (made_elem kvs Nd K) as (c & -> & M). eexists. split; [reflexivity|]. exists c. auto. }
    rewrite E2 in E. cbn [rbind] in E. injection E as <-. apply aot_neat; [exact Ne| |exact Ti]. clear -F2. induction F2 as [|v i l its (c & -> & R) F2 IH]; [constructor|]. cbn [flat_map as_table app]. constructor; assumption.
  - inversion H as [? X| |? Nd Fl]; subst; [destruct X|]. assert (K : Forall (fun kv => exists i, py_item PkTable (snd kv) = Ok i /\ nrel kv (fst kv, i)) kvs).
    { apply made_nrel; [exact Fl|]. rewrite Forall_forall in *. intros kv I. apply (IH _ I (Fl _ I)). }
    split; [|split; assumption]. intros pk Hp T. destruct (proj2 (proj1 (all_made _ (fine_ok _ H))) pk Hp T) as (i & E & Ti & _). exists i. split; [exact E|]. rewrite py_item_dict in E. cbv zeta in E. rewrite Hp in E. cbn [dict_parent] in E.
    destruct (mapr_forall2 nrel (fun kv : str * pyv => let* i := py_item PkTable (snd kv) in Ok (fst kv, i)) kvs) as (its & E2 & F2).
    { eapply Forall_impl; [|exact K]. intros [k x] (j & Ej & R). cbn [fst snd] in *. rewrite Ej. exists (k, j). split; [reflexivity|exact R]. }
    rewrite E2 in E. cbn [rbind] in E. destruct (made_cont kvs its F2 Nd) as (c & E3 & M). rewrite E3 in E. cbn [rbind new_dict] in E. injection E as <-. apply dict_neat; assumption.
Qed.
