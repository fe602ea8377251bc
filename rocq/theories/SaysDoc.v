(** SaysDoc: a parsed document without arrays of tables holds exactly the facts its
    lines state (C39). *)
From Verif Require Import Base Source Utils Items Container Arrays Parser Api Lemmas Numbers Reader Errors Control Text TextParse TextDoc Mono Grammar GramSound Meaning Says Consist Wf OMap ContOps Facts.
From Coq Require Import Permutation ZifyBool ZifyNat ZifyN.
Open Scope nat_scope.

Section Doc.
(** What a value text is read as. *)
Context (R : str -> item -> Prop).
Definition stops (st : pst) : Prop := at_end st = true \/ blank_c (cur st) \/ newline_c (cur st) \/ cur st = 35%N.
Context (HR : forall n st v st' w, parse_value false n st = (Ok v, st') -> moved w st st' -> value_text true w -> stops st' -> R w (bare v)).

Definition agree (a : list str * option str) (b : fact) : Prop :=
  fst a = fst b /\ match snd a, snd b with None, None => True | Some t, Some i => R t i | _, _ => False end.
Definition Agree (l : list (list str * option str)) (fs : list fact) : Prop := exists fs', Permutation fs fs' /\ Forall2 agree l fs'.
Lemma Agree_nil : Agree [] []. Proof. exists []. split; constructor. Qed.
Lemma Agree_app l l' f f' : Agree l f -> Agree l' f' -> Agree (l ++ l') (f ++ f').
Proof. intros (x & X1 & X2) (y & Y1 & Y2). exists (x ++ y). split; [apply Permutation_app; assumption|apply Forall2_app; assumption]. Qed.
Lemma Agree_perm l f f' : Permutation f f' -> Agree l f -> Agree l f'.
Proof. intros P (x & X1 & X2). exists x. split; [rewrite <- P; exact X1|exact X2]. Qed.
Lemma Agree_one p o i : agree (p, o) (p, i) -> Agree [(p, o)] [(p, i)].
Proof. intros H. exists [(p, i)]. split; [reflexivity|]. constructor; [exact H|constructor]. Qed.

(** * Where the reader stands, and what has been said so far *)
Notation lines' := (lines_say true).
Notation document' := (document_says true).
Definition bolpos (st : pst) (l : list stmt) : Prop := (at_end st = true /\ document' (p_pre st) l) \/ lines' (p_pre st) l.
Definition pos (st : pst) (l : list stmt) : Prop := (at_end st = true /\ document' (p_pre st) l) \/ exists X a, p_pre st = X ++ a /\ lines' X l /\ margin a /\ cur st = chLBR.
Lemma bol_end st l : bolpos st l -> at_end st = true -> pos st l.
Proof. intros [[_ H]|H] E; left; (split; [exact E|]); [exact H|left; exact H]. Qed.
Lemma bol_line X w st a b : p_pre st = X ++ w -> lines' X a -> (line_says true false w b /\ at_end st = true) \/ line_says true true w b -> bolpos st (a ++ b).
Proof.
  intros E HX [[H K]|H].
  - left. split; [exact K|]. right. exists X, w, a, b. auto.
  - right. rewrite E. apply lsy_snoc; assumption.
Qed.
Lemma closing st r st' : parse_comment_trail true st = (Ok r, st') -> stops st /\ exists w, moved w st st' /\ forall f l, (forall b, rest_of_line b w -> line_says true b (f w) l) -> (line_says true false (f w) l /\ at_end st' = true) \/ line_says true true (f w) l.
Proof.
  intros H. apply line_gram in H as (w & M & H). split.
  - destruct M as [M _]. unfold stops, at_end, cur. rewrite M.
    assert (Hd : forall (m k e : str), margin m -> (k = [] \/ comment k) -> (e = [] \/ exists c z, e = c :: z /\ newline_c c) -> w = m ++ k ++ e -> (w = [] \/ exists c z, w = c :: z /\ (blank_c c \/ newline_c c \/ c = 35%N))).
    { intros m k e Hm Hk He ->. destruct m as [|c m]; [|right; exists c, (m ++ k ++ e); split; [reflexivity|]; inversion Hm as [|? ? [K|K] _]; [left; exact K|right; left; right; exact K]].
      destruct Hk as [->|(t & -> & _)]; [|right; eexists; eexists; split; [reflexivity|right; right; reflexivity]]. destruct He as [->|(c & z & -> & Hc)]; [left; reflexivity|right; exists c, z; split; [reflexivity|right; left; exact Hc]]. }
    assert (W : w = [] \/ exists c z, w = c :: z /\ (blank_c c \/ newline_c c \/ c = 35%N)).
    { assert (Hr : exists b, rest_of_line b w) by (destruct H as [[H _]|H]; eexists; exact H). destruct Hr as [b Hr]. inversion Hr as [m Hm E1 E2|m k e Hm Hk He E1 E2|m Hm E1 E2|m k Hm Hk E1 E2]; rewrite ?E2.
      - apply (Hd m [] [10%N]); auto. right. exists 10%N, []. split; [reflexivity|left; reflexivity].
      - apply (Hd m k e); auto. right. cbn [In] in He. destruct He as [<-|[<-|[<-|[]]]]; (eexists; eexists; split; [reflexivity|]); [left|right|right]; reflexivity.
      - apply (Hd w [] []); [exact Hm|left; reflexivity|left; reflexivity|cbn [app]; rewrite app_nil_r; congruence].
      - apply (Hd m k []); [exact Hm|right; exact Hk|left; reflexivity|cbn [app]; rewrite app_nil_r; congruence]. }
    destruct W as [->|(c & z & -> & Hc)]; [|right; exact Hc]. cbn [app]. left. destruct H as [[_ H]|H].
    + exact H.
    + exfalso. inversion H as [m Hm E1 E2|m k e Hm Hk He E1 E2| |]; [destruct m; discriminate|]. destruct Hk as (t & -> & _). destruct m; discriminate.
  - exists w. split; [exact M|]. intros f l F. destruct H as [[H E]|H]; [left; split; [apply F, H|exact E]|right; apply F, H].
Qed.
Lemma kv_says n st r st' : key_value_with false (parse_value false n) n true st = (Ok r, st') ->
  exists a k q v s1, blanks a /\ key_says k (names (fst r)) /\ sep_text q /\ value_text true v /\ moved (a ++ k ++ q ++ v) st s1 /\ (stops s1 -> R v (bare (snd r))) /\ valued (snd r) /\ key_fine (Some (fst r))
    /\ exists ctr, parse_comment_trail true s1 = (Ok ctr, st').
Proof.
  intros H. unfold key_value_with in H. bix H. bix H. bix H. destruct (moved_blanks (set_mark st)) as (a & Ha & Ma). bi H k0 s1 Q1. pose proof (key_fine_read _ _ _ _ Q1) as Kf. apply key_says_read in Q1 as (k & K1 & K2 & _).
  bi H sp s2 Q2. apply sep_gram in Q2 as (q & P1 & P2). bi H v0 s3 Q3. pose proof (value_gram false n _ _ _ Q3) as (v & V1 & V2). cbv zeta in H. bi H t s4 Q4. apply (f_equal snd) in H as H'. cbn [snd ret] in H'. subst s4. apply (f_equal fst) in H. cbn [fst ret] in H. inversion H. subst r. clear H.
  cbn [fst snd]. exists a, k, q, v, s3. split; [exact Ha|]. split; [rewrite names_sep; exact K2|]. split; [exact P2|]. split; [exact V2|]. split.
  { eapply moved_trans; [exact Ma|]. eapply moved_trans; [exact K1|]. eapply moved_trans; [exact P1|exact V1]. }
  split; [intros S0; rewrite bare_set; eapply HR; eassumption|]. split; [pose proof (sat_valued n false _ _ _ Q3) as Vv; destruct v0; try contradiction; exact I|]. split; [destruct k0; [exact I|cbn; exact Kf]|].
  bi Q4 ctr s4 Q5. destruct ctr as [[cws cm] tr]. bi Q4 u s5 Q6. apply lossy_inv in Q6 as [_ ->]. apply (f_equal snd) in Q4. cbn [snd ret] in Q4. subst s4. eauto.
Qed.
Lemma valued_facts i : valued i -> facts_item i = [([], Some (bare i))] /\ tame i.
Proof. destruct i; intros H; try contradiction; split; try reflexivity; apply tame_other; reflexivity. Qed.
Definition silent (i : item) : Prop := match i with IWs _ _ | IComment _ => True | _ => False end.
(** One line that is not a header. *)
Lemma item_says n st r st' l : bolpos st l -> at_end st = false -> parse_item false n st = (Ok r, st') ->
  match r with
  | Some (None, i) => bolpos st' l /\ silent i
  | Some (Some k, i) => exists v, bolpos st' (l ++ [Pair (names k) v]) /\ R v (bare i) /\ valued i /\ key_fine (Some k)
  | None => pos st' l
  end.
Proof.
  intros [[K _]|HX] Ee H; [congruence|]. unfold parse_item in H. destruct (restore_on_err item_head st) as [[h|e] s1] eqn:Q; [|discriminate].
  assert (Q' : item_head st = (Ok h, s1)). { unfold restore_on_err in Q. destruct (item_head st) as [[h0|e0] s0]; [exact Q|discriminate]. } clear Q.
  destruct h as [i| |].
  - injection H as <- <-. unfold item_head in Q'. bix Q'. bix Q'. bix Q'. bix Q'. bix Q'. set (s0 := adv_while is_blank (set_mark st)) in *. rewrite <- (app_nil_r l).
    pose proof (adv_moved is_blank (set_mark st)) as M0. fold s0 in M0. cbn [set_mark p_rest] in M0. assert (Hm : margin (take_while is_blank (p_rest st))) by (apply taken; chp).
    revert M0 Hm. generalize (take_while is_blank (p_rest st)). intros a M0 Hm. clearbody s0. destruct (at_end s0 && _)%bool eqn:E0.
    { apply andb_true_iff in E0 as [E0 _]. injection Q' as <- <-. split; [|exact I]. apply (bol_line (p_pre st) a); [apply M0|exact HX|]. left. split; [apply ly_rest, rl_end, Hm|exact E0]. }
    destruct (N.eqb_spec (cur s0) chLF) as [Ec|_].
    { bi Q' u s2 Q. pose proof (incM_moved _ _ _ _ Q Ec ltac:(discriminate)) as M1. bix Q'. injection Q' as <- <-. split; [|exact I]. pose proof (moved_trans _ _ _ _ _ M0 M1) as M2.
      apply (bol_line (p_pre st) (a ++ [chLF])); [apply M2|exact HX|]. right. apply ly_rest, rl_newline, Hm. }
    destruct (N.eqb_spec (cur s0) chHASH) as [Ec|_]; [|destruct (cur s0 =? chLBR)%N; discriminate].
    bi Q' ctr0 s2 Q. destruct ctr0 as [[cws cm] tr]. injection Q' as <- <-. split; [|exact I]. apply closing in Q as (_ & w & M1 & C). pose proof (moved_trans _ _ _ _ _ M0 M1) as M2.
    apply (bol_line (p_pre st) (a ++ w)); [apply M2|exact HX|]. apply (C (fun w => a ++ w)). intros b B. apply ly_rest, margin_rest; assumption.
  - injection H as <- <-. right. exists (p_pre st). unfold item_head in Q'. bix Q'. bix Q'. bix Q'. bix Q'. bix Q'. set (s0 := adv_while is_blank (set_mark st)) in *.
    pose proof (adv_moved is_blank (set_mark st)) as M0. fold s0 in M0. cbn [set_mark p_rest] in M0. assert (Hm : margin (take_while is_blank (p_rest st))) by (apply taken; chp).
    destruct (at_end s0 && _)%bool; [discriminate|]. destruct (cur s0 =? chLF)%N; [bi Q' u s2 Q; bix Q'; discriminate|]. destruct (cur s0 =? chHASH)%N; [bi Q' ctr0 s2 Q; destruct ctr0 as [[? ?] ?]; discriminate|].
    destruct (N.eqb_spec (cur s0) chLBR) as [Ec|]; [|discriminate]. apply (f_equal snd) in Q'. cbn [snd ret] in Q'. subst s1. exists (take_while is_blank (p_rest st)). split; [apply M0|]. auto.
  - bi H kv s2 Q. apply (f_equal snd) in H as H'. cbn [snd ret] in H'. subst s2. injection H as <-. unfold parse_key_value in Q.
    apply kv_says in Q as (a & k & q & v & s2 & Ha & Hk & Hq & Hv & M & Hr & Hvd & Hkf & ctr0 & Q). apply closing in Q as (S0 & w & M1 & C). pose proof (moved_trans _ _ _ _ _ M M1) as M2. rewrite <- !app_assoc in M2.
    exists v. split; [|split; [apply Hr, S0|split; assumption]].
    apply (bol_line (p_pre st) (a ++ k ++ q ++ v ++ w)); [apply M2|exact HX|]. apply (C (fun w => a ++ k ++ q ++ v ++ w)). intros b B. apply ly_pair; assumption.
Qed.

(** * Tables *)
Definition headed (l : list stmt) : Prop := match l with Pair _ _ :: _ => False | _ => True end.
Lemma said_app sec a b : headed b -> said sec (a ++ b) = said sec a ++ said [] b.
Proof.
  intros H. revert sec. induction a as [|x a IH]; intros sec; cbn [app said]; [destruct b as [|[] b]; [reflexivity|contradiction|reflexivity|reflexivity]|]. destruct x; cbn [said]; rewrite IH; reflexivity.
Qed.
Lemma no_element_app a b : no_element (a ++ b) <-> no_element a /\ no_element b.
Proof. unfold no_element. split; [intros H; split; intros n K; apply (H n), in_app_iff; auto|intros [A B] n K; apply in_app_iff in K as [K|K]; [apply (A n K)|apply (B n K)]]. Qed.
(** What the container has gained, at the path [F]. *)
Definition grown (F : list str) (l : list (list str * option str)) (c c' : container) : Prop := tamec c' /\ exists e, Permutation (facts c') (facts c ++ e) /\ Agree l (under F e).
Lemma grown_refl F c : tamec c -> grown F [] c c. Proof. intros H. split; [exact H|]. exists []. split; [rewrite app_nil_r; reflexivity|apply Agree_nil]. Qed.
Lemma grown_trans F l l' c c1 c2 : grown F l c c1 -> grown F l' c1 c2 -> grown F (l ++ l') c c2.
Proof. intros (T1 & e1 & P1 & A1) (T2 & e2 & P2 & A2). split; [exact T2|]. exists (e1 ++ e2). split; [rewrite P2, P1, app_assoc; reflexivity|]. rewrite under_app. apply Agree_app; assumption. Qed.
Definition header_of (st : pst) (ns : list str) : Prop := ns <> [] /\ forall n a ky s', peek_table n st = (Ok (a, ky), s') -> names ky = ns.
Definition PTs n := forall p t k st r st' l, pos st l -> parse_table false n p t k st = (Ok r, st') ->
  exists (ia : bool) ns l2, let l1 := (if ia then Element ns else Table ns) :: l2 in pos st' (l ++ l1) /\ header_of st ns /\
    let plen := match p with Some p => List.length (key_parts p) | None => 0 end in
    (no_element l1 -> plen < List.length ns -> tame (snd r) /\ key_fine (Some (fst r)) /\ Agree (said [] l1) (under (firstn plen ns ++ names (fst r)) (facts_item (snd r)))).
Definition TLs n := forall f k c st r st' l, bolpos st l -> table_loop false n f k c st = (Ok r, st') ->
  exists l1, pos st' (l ++ l1) /\ (no_element l1 -> tamec c -> grown (names f) (said (names f) l1) c r).
Definition SBs n := forall f k c st r st' l, pos st l -> siblings false n f k c st = (Ok r, st') ->
  exists l1, pos st' (l ++ l1) /\ headed l1 /\ (no_element l1 -> tamec c -> grown (names f) (said [] l1) c r).
Definition AOs n := forall x m k st r st' l, pos st l -> parse_aot false n x m k st = (Ok r, st') -> exists l1, pos st' (l ++ l1).
Definition ALs n := forall x m k st r st' l, pos st l -> aot_loop false n x m k st = (Ok r, st') -> exists l1, pos st' (l ++ l1).
Lemma pos_nil st l : pos st l -> exists l1, pos st (l ++ l1). Proof. intros H. exists []. rewrite app_nil_r. exact H. Qed.
Lemma AOs_step n : ALs n -> AOs (S n).
Proof. intros HA x m k st r st' l P H. cbn [parse_aot] in H. bi H l0 s1 Q. apply (f_equal snd) in H. cbn [snd ret] in H. subst s1. eapply HA; eassumption. Qed.
Lemma ALs_step n : PTs n -> ALs n -> ALs (S n).
Proof.
  intros HP HA x m k st r st' l P H. cbn [aot_loop] in H. bix H. destruct (at_end st); [apply (f_equal snd) in H; cbn [snd ret] in H; subst st'; apply pos_nil, P|].
  bi H pk s1 Q. apply peek_state in Q as ->. destruct (_ && _)%bool; [|apply (f_equal snd) in H; cbn [snd ret] in H; subst st'; apply pos_nil, P]. bi H kt s2 Q. apply (HP _ _ _ _ _ _ _ P) in Q as (ia & ns & l2 & P2 & _).
  destruct (snd kt); try discriminate. eapply HA in H as [l3 P3]; [|exact P2]. rewrite <- app_assoc in P3. eexists. exact P3.
Qed.
Lemma keys_eqb_names a : forall b, skeys_eqb a b = true <-> map k_key a = map k_key b.
Proof.
  induction a as [|x a IH]; intros [|y b]; cbn [skeys_eqb map]; split; try discriminate; try reflexivity.
  - intros H. apply andb_true_iff in H as [H1 H2]. apply str_eqb_eq in H1. apply IH in H2. congruence.
  - intros H. injection H as H1 H2. apply andb_true_iff. split; [apply str_eqb_eq, H1|apply IH, H2].
Qed.
Lemma child_names f ky : is_child f ky = true -> List.length (key_parts f) < List.length (names ky) /\ firstn (List.length (key_parts f)) (names ky) = names f.
Proof.
  unfold is_child. intros H. apply andb_true_iff in H as [H1 H2]. apply keys_eqb_names in H2. rewrite <- firstn_map in H2. unfold names. split; [|symmetry; exact H2]. rewrite map_length.
  destruct (Nat.lt_ge_cases (List.length (key_parts f)) (List.length (key_parts ky))) as [K|K]; [exact K|]. exfalso. rewrite firstn_all2 in H2 by (rewrite map_length; exact K). apply negb_true_iff in H1. apply keys_eqb_names in H2. congruence.
Qed.
Lemma append_grown F f c k it c' l st st' : table_append_m false c (Some k) it st = (Ok c', st') -> tamec c -> tame it -> key_fine (Some k) -> F = names f -> Agree l (under (F ++ names k) (facts_item it)) -> grown F l c c'.
Proof.
  intros H Hc Hi Hk -> HA. apply lift_inv in H as [H _]. pose proof (table_raw_f c (Some k) it Hc Hi Hk) as G. rewrite H in G. destruct G as [G1 G2]. split; [exact G2|]. exists (kfacts (Some k) it). split; [exact G1|].
  cbn [kfacts]. rewrite under_under. exact HA.
Qed.
Lemma child_grown n f k c st pk kt s2 c' s3 l : PTs n -> pos st l -> peek_table n st = (Ok pk, st) -> is_child f (snd pk) = true -> parse_table false n (Some f) (Some (key_string f)) k st = (Ok kt, s2) ->
  table_append_m false c (Some (fst kt)) (snd kt) s2 = (Ok c', s3) ->
  exists l1, s3 = s2 /\ pos s2 (l ++ l1) /\ headed l1 /\ (no_element l1 -> tamec c -> grown (names f) (said [] l1) c c').
Proof.
  intros HP P Q Hch Qt Qa. pose proof (append_state false _ _ _ _ _ _ Qa) as ->. apply (HP _ _ _ _ _ _ _ P) in Qt as (ia & ns & l2 & P2 & Hh & HG). exists ((if ia then Element ns else Table ns) :: l2). split; [reflexivity|]. split; [exact P2|]. split; [destruct ia; exact I|].
  intros Hn Hc. destruct pk as [a ky]. apply (proj2 Hh) in Q as <-. cbn [snd] in Hch. apply child_names in Hch as [C1 C2]. destruct (HG Hn C1) as (T & Kf & A). rewrite C2 in A. eapply append_grown; eauto.
Qed.
Lemma SBs_step n : PTs n -> SBs n -> SBs (S n).
Proof.
  intros HP HA f k c st r st' l P H. cbn [siblings] in H. bix H.
  assert (Done : forall st0 : pst, (ret c : M container) st0 = (Ok r, st') -> pos st0 l -> exists l1, pos st' (l ++ l1) /\ headed l1 /\ (no_element l1 -> tamec c -> grown (names f) (said [] l1) c r)).
  { intros st0 E P0. injection E as <- <-. exists []. rewrite app_nil_r. split; [exact P0|]. split; [exact I|]. intros _ Hc. apply grown_refl, Hc. }
  destruct (at_end st); [eapply Done; eassumption|]. bi H pk s1 Q. pose proof (peek_state _ _ _ _ Q) as ->. destruct (is_child _ _) eqn:Ech; [|eapply Done; eassumption]. bi H kt s2 Q2. bi H c' s3 Q3.
  destruct (child_grown _ _ _ _ _ _ _ _ _ _ _ HP P Q Ech Q2 Q3) as (l1 & -> & P2 & H1 & G1). eapply HA in H as (l2 & P3 & H2 & G2); [|exact P2]. rewrite <- app_assoc in P3. exists (l1 ++ l2). split; [exact P3|].
  split; [destruct l1 as [|[] l1]; auto|]. intros Hn Hc. apply no_element_app in Hn as [N1 N2]. specialize (G1 N1 Hc). rewrite said_app by exact H2. eapply grown_trans; [exact G1|]. apply G2; [exact N2|apply G1].
Qed.
Lemma TLs_step n : PTs n -> SBs n -> TLs n -> TLs (S n).
Proof.
  intros HP HS HT f k c st r st' l P H. cbn [table_loop] in H. bix H.
  assert (Done : forall st0 : pst, (ret c : M container) st0 = (Ok r, st') -> pos st0 l -> exists l1, pos st' (l ++ l1) /\ (no_element l1 -> tamec c -> grown (names f) (said (names f) l1) c r)).
  { intros st0 E P0. injection E as <- <-. exists []. rewrite app_nil_r. split; [exact P0|]. intros _ Hc. apply grown_refl, Hc. }
  destruct (at_end st) eqn:Ee; [eapply Done; [exact H|apply bol_end; assumption]|].
  bi H it s1 Q. apply (item_says _ _ _ _ _ P Ee) in Q. destruct it as [[[k0|] i]|].
  - destruct Q as (v & B & Rv & Vi & Kf). bix H. destruct (valued_facts _ Vi) as [Fi Ti].
    assert (merge_ws i c s1 = None) as Em by (destruct c; destruct i; try contradiction; reflexivity). rewrite Em in H. bi H c' s2 Q2. pose proof (append_state false _ _ _ _ _ _ Q2) as ->. eapply HT in H as (l2 & P2 & G2); [|exact B].
    rewrite <- app_assoc in P2. exists ([Pair (names k0) v] ++ l2). split; [exact P2|]. intros Hn Hc. apply no_element_app in Hn as [_ N2].
    assert (G1 : grown (names f) [(names f ++ names k0, Some v)] c c').
    { eapply append_grown; [exact Q2|exact Hc|exact Ti|exact Kf|reflexivity|]. rewrite Fi. cbn [under map fst snd]. rewrite app_nil_r. apply Agree_one. split; [reflexivity|exact Rv]. }
    cbn [app said]. apply (grown_trans (names f) [_] _ c c' r G1). apply G2; [exact N2|apply G1].
  - destruct Q as (B & Si). bix H. destruct (merge_ws i c s1) as [c'|] eqn:Em.
    + eapply HT in H as (l2 & P2 & G2); [|exact B]. exists l2. split; [exact P2|]. intros Hn Hc. destruct (merge_f _ _ _ _ Hc Em) as [T' E']. destruct (G2 Hn T') as (T & e & Pe & A). split; [exact T|]. exists e. rewrite <- E'. auto.
    + bi H c' s2 Q2. pose proof (append_state false _ _ _ _ _ _ Q2) as ->. eapply HT in H as (l2 & P2 & G2); [|exact B]. exists l2. split; [exact P2|]. intros Hn Hc.
      apply lift_inv in Q2 as [Q2 _]. assert (Ti : tame i) by (apply tame_other; destruct i; try contradiction; reflexivity). pose proof (table_raw_f c None i Hc Ti I) as G. rewrite Q2 in G. destruct G as [G1 T1]. cbn [kfacts] in G1. rewrite app_nil_r in G1.
      destruct (G2 Hn T1) as (T & e & Pe & A). split; [exact T|]. exists e. split; [rewrite <- G1; exact Pe|exact A].
  - bix H. destruct (cur s1 =? chLBR)%N; [|discriminate]. bi H pk s2 Q2. pose proof (peek_state _ _ _ _ Q2) as ->. destruct (is_child _ _) eqn:Ech; [|eapply Done; eassumption].
    bi H kt s2 Q3. bi H c' s3 Q4. destruct (child_grown _ _ _ _ _ _ _ _ _ _ _ HP Q Q2 Ech Q3 Q4) as (l1 & -> & P2 & H1 & G1). eapply HS in H as (l2 & P3 & H2 & G2); [|exact P2]. rewrite <- app_assoc in P3. exists (l1 ++ l2). split; [exact P3|].
    intros Hn Hc. apply no_element_app in Hn as [N1 N2]. specialize (G1 N1 Hc). rewrite said_app by exact H2.
    replace (said (names f) l1) with (said [] l1) by (destruct l1 as [|[] l1]; [reflexivity|contradiction|reflexivity|reflexivity]). eapply grown_trans; [exact G1|]. apply G2; [exact N2|apply G1].
Qed.
Lemma nest_facts t c m : tamec c -> tm_aot m = false -> tm_super m = Some false -> forall rest parent, rest <> [] -> tamec (nest t rest parent c m false) /\ facts (nest t rest parent c m false) = under (map k_key rest) (([], None) :: facts c).
Proof.
  intros Hc Ha Hs. assert (Tl : tame (ITable c m)) by (constructor; [exact Ha|split; congruence|exact Hc]).
  induction rest as [|x rest IH]; intros parent Hn; [congruence|]. destruct rest as [|y rest].
  - cbn [nest leaf_item]. destruct (singleton_f x _ Tl) as [A B]. split; [exact A|]. rewrite B. cbn [facts_item map]. unfold own_fact. rewrite Hs. reflexivity.
  - change (nest t (x :: y :: rest) parent c m false) with (singleton x (mk_table (nest t (y :: rest) (k_key x) c m false) t false true (Some (k_key x)) None)). destruct (IH (k_key x)) as [A B]; [discriminate|].
    destruct (singleton_f x (mk_table (nest t (y :: rest) (k_key x) c m false) t false true (Some (k_key x)) None)) as [C D]; [constructor; [reflexivity|split; [discriminate|intros _; rewrite B; discriminate]|exact A]|].
    split; [exact C|]. rewrite D. unfold mk_table. cbn [facts_item own_fact tm_super app]. rewrite B, under_under. reflexivity.
Qed.

Lemma peek_read n st a ky s' s1 (b0 : bool) : peek_table n st = (Ok (a, ky), s') -> incM st = (Ok b0, s1) ->
  exists s2 s3, parse_table_key n s2 = (Ok ky, s3) /\ (if (cur s1 =? chLBR)%N then exists b, incM s1 = (Ok b, s2) else s2 = s1).
Proof.
  unfold peek_table, restoring_all. match goal with |- (let '(r, _) := ?m st in _) = _ -> _ => destruct (m st) as [r0 st0] eqn:E end. intros H Hi. injection H as -> _.
  bix E. destruct (negb _); [discriminate|]. bi E b1 s2 Q1. rewrite Hi in Q1. injection Q1 as <- <-. bix E. bi E ia s3 Q2. bi E k s4 Q3. injection E as _ <- _. exists s3, s4. split; [exact Q3|].
  destruct (cur s1 =? chLBR)%N; [bi Q2 b2 s5 Q4; injection Q2 as _ <-; eauto|]. injection Q2 as _ <-. reflexivity.
Qed.
Lemma table_key_det n n' st k s1 k' s2 : parse_table_key n st = (Ok k, s1) -> parse_table_key n' st = (Ok k', s2) -> k = k'.
Proof.
  intros H H'. assert (U : forall a b x y z, a <= b -> parse_table_key a x = (Ok y, z) -> parse_table_key b x = (Ok y, z)).
  { intros a b x y z L E. destruct (mle_table_key false a b L x) as [(e & z' & K & _)|K]; congruence. }
  apply (U n (Nat.max n n')) in H; [|lia]. apply (U n' (Nat.max n n')) in H'; [|lia]. congruence.
Qed.
Lemma PTs_step n : TLs n -> AOs n -> PTs (S n).
Proof.
  intros HT HA p t k st r st' l P H. cbn [parse_table] in H. bix H. destruct (N.eqb_spec (cur st) chLBR) as [Ec|]; [|discriminate]. cbn [negb] in H. bix H. bi H b0 s1 Q1. pose proof (incM_moved _ _ _ _ Q1 Ec ltac:(discriminate)) as M1.
  destruct P as [[K _]|(X & a & EX & HX & Hm & _)]; [unfold at_end, cur in *; destruct (p_rest st); discriminate|].
  bix H. destruct (at_end s1); [discriminate|]. bix H. bi H ia s2 Q2.
  assert (M2 : moved (if ia then [91]%N else []) s1 s2 /\ (if (cur s1 =? chLBR)%N then exists b, incM s1 = (Ok b, s2) else s2 = s1)).
  { destruct (N.eqb_spec (cur s1) chLBR) as [E|].
    - bi Q2 b1 s3 Q3. pose proof (incM_moved _ _ _ _ Q3 E ltac:(discriminate)) as M. destruct b1; [|discriminate]. injection Q2 as <- <-. split; [exact M|]. eauto.
    - injection Q2 as <- <-. split; [apply moved_nil|reflexivity]. }
  destruct M2 as [M2 Hs2]. clear Q2. bi H ky s3 Q3.
  assert (Hh0 : forall n a ky' s', peek_table n st = (Ok (a, ky'), s') -> names ky' = names ky).
  { intros n' a' ky' s' Hp. destruct (peek_read _ _ _ _ _ _ _ Hp Q1) as (s2' & s3' & Hk & Hs). assert (s2' = s2) as ->.
    { destruct (cur s1 =? chLBR)%N; [destruct Hs as [x Hs], Hs2 as [y Hs2]; congruence|congruence]. }
    unfold names. f_equal. f_equal. eapply table_key_det; eassumption. }
  clear Q1. pose proof (table_key_inv _ _ _ _ Q3) as Q3'. apply key_says_read in Q3' as (kt & M3 & Hk & Hne). clear Q3. assert (Hh : header_of st (names ky)) by (split; [exact Hne|exact Hh0]). clear Hh0. bix H. bix H. destruct (at_end s3); [discriminate|]. destruct (N.eqb_spec (cur s3) chRBR) as [Er|]; [|discriminate]. cbn [negb] in H. cbv zeta in H.
  destruct (existsb _ (key_parts (key_set_sep [] ky))); [discriminate|]. bi H b4 s4 Q4. pose proof (incM_moved _ _ _ _ Q4 Er ltac:(discriminate)) as M4. clear Q4. bix H. bi H u s5 Q5. apply lossy_inv in Q5 as [_ ->].
  bi H b5 s5 Q5. assert (M5 : exists x, moved x s4 s5 /\ if ia then x = [93]%N \/ (true = true /\ List.length x <= 1) else x = []).
  { destruct ia; [|apply (f_equal snd) in Q5; cbn [snd ret] in Q5; subst s5; exists []; split; [apply moved_nil|reflexivity]]. apply one_more in Q5 as (x & Mx & Lx & Cx). exists x. split; [exact Mx|]. right. auto. }
  clear Q5. destruct M5 as (x & M5 & Hx). bi H ctr0 s6 Q6. destruct ctr0 as [[cws cm] tr]. apply closing in Q6 as (_ & w & M6 & C).
  exists ia, (names ky). set (hd := if ia then Element (names ky) else Table (names ky)).
  assert (B : bolpos s6 (l ++ [hd])).
  { assert (MM : moved ([91] ++ (if ia then [91] else []) ++ kt ++ [93] ++ x ++ w)%N st s6).
    { eapply moved_trans; [exact M1|]. eapply moved_trans; [exact M2|]. eapply moved_trans; [exact M3|]. eapply moved_trans; [exact M4|]. eapply moved_trans; [exact M5|exact M6]. }
    apply (bol_line X (a ++ [91] ++ (if ia then [91] else []) ++ kt ++ [93] ++ x ++ w)%N); [rewrite app_assoc, <- EX; apply MM|exact HX|].
    apply (C (fun w => a ++ [91] ++ (if ia then [91] else []) ++ kt ++ [93] ++ x ++ w)%N). intros b B. unfold hd. destruct ia.
    - apply (ly_aot true b a kt (names ky) x w); assumption.
    - subst x. apply (ly_table true b a kt (names ky) w); assumption. }
  clear M1 M2 M3 M4 M5 M6 C. bi H u2 s7 Q7. apply lossy_inv in Q7 as [_ ->]. bi H u3 s7 Q7. apply lossy_inv in Q7 as [_ ->]. bi H c s7 Q7. apply (HT _ _ _ _ _ _ _ B) in Q7 as (l2 & P7 & G7). rewrite <- app_assoc in P7. rewrite names_sep in G7.
  bi H u4 s8 Q8. apply lift_inv in Q8 as [_ ->]. bi H u5 s8 Q8. apply lossy_inv in Q8 as [_ ->].
  set (plen := match p with Some p0 => _ | None => 0 end) in *. assert (Ek : map k_key (key_parts (key_set_sep [] ky)) = names ky) by (apply (names_sep [] ky)).
  revert Ek H. generalize (key_parts (key_set_sep [] ky)). intros parts Ek H.
  assert (G : forall m, tm_aot m = false -> tm_super m = Some false -> no_element (hd :: l2) -> ia = false /\ tame (ITable c m) /\ tamec c /\ Agree (said [] (hd :: l2)) (under (names ky) (([], None) :: facts c))).
  { intros m Ha Hs Hn. assert (ia = false) as Eia by (destruct ia; [exfalso; apply (Hn (names ky)); left; reflexivity|reflexivity]). destruct (G7 (fun y Y => Hn y (or_intror Y)) (tamec_empty true)) as (Tc & e & Pe & Ae). split; [exact Eia|]. split; [constructor; [exact Ha|split; congruence|exact Tc]|]. split; [exact Tc|].
    unfold hd. rewrite Eia. cbn [said under map fst snd]. rewrite app_nil_r. apply (Agree_app [_] _ [_] _); [apply Agree_one; split; [reflexivity|exact I]|]. eapply Agree_perm; [|exact Ae]. apply under_perm. symmetry. exact Pe. }
  assert (Es : names ky = firstn plen (names ky) ++ map k_key (skipn plen parts)) by (rewrite <- Ek, <- skipn_map, firstn_skipn; reflexivity).
  destruct (skipn plen parts) as [|p0 [|p1 rest]] eqn:Esk.
  - cbv zeta in H. assert (D : plen < List.length (names ky) -> False) by (intros D; rewrite <- Ek, map_length in D; apply (f_equal (@List.length _)) in Esk; rewrite skipn_length in Esk; cbn in Esk; lia).
    destruct (ia && _)%bool; [|injection H as <- <-; exists l2; split; [exact P7|]; split; [exact Hh|]; cbv zeta; intros _ K; contradiction].
    bi H ao s8 Q8. apply (HA _ _ _ _ _ _ _ P7) in Q8 as [l3 P8]. injection H as <- <-. exists (l2 ++ l3). rewrite <- app_assoc in P8. split; [exact P8|]. split; [exact Hh|]. cbv zeta. intros _ K. contradiction.
  - cbv zeta in H. destruct ia eqn:Eia.
    + assert (K : exists l3, pos st' (l ++ hd :: l2 ++ l3)).
      { destruct (true && _)%bool; [|injection H as _ <-; exists []; rewrite app_nil_r; exact P7]. bi H ao s8 Q8. apply (HA _ _ _ _ _ _ _ P7) in Q8 as [l3 P8]. injection H as _ <-. exists l3. rewrite <- app_assoc in P8. exact P8. }
      destruct K as [l3 K]. exists (l2 ++ l3). split; [exact K|]. split; [exact Hh|]. cbv zeta. intros Hn. exfalso. apply (Hn (names ky)). left. reflexivity.
    + cbn [andb] in H. injection H as <- <-. exists l2. split; [exact P7|]. split; [exact Hh|]. cbv zeta. intros Hn _. cbn [fst snd]. destruct (G (mkTM (mkTrivia a cws cm tr) false (Some false) (Some (k_key p0)) (Some (key_string (key_set_sep [] ky)))) eq_refl eq_refl Hn) as (_ & T & _ & A).
      split; [|split; [exact I|]].
      * inversion T; subst; [constructor; [reflexivity|split; discriminate|assumption]|discriminate].
      * cbn [facts_item own_fact tm_super app]. change (names (KSingle p0)) with [k_key p0]. cbn [map] in Es. rewrite <- Es. exact A.
  - injection H as <- <-. exists l2. split; [exact P7|]. split; [exact Hh|]. cbv zeta. intros Hn _. cbn [fst snd].
    set (m := mkTM _ ia (Some false) _ _). destruct (G (mkTM (mkTrivia a cws cm tr) false (Some false) None None) eq_refl eq_refl Hn) as (Eia & _ & Tc & A).
    destruct (nest_facts (mkTrivia (extract st) cws cm tr) c m Tc Eia eq_refl (p1 :: rest) (k_key p0)) as [N1 N2]; [discriminate|]. rewrite Eia in *. cbn [andb].
    split; [constructor; [reflexivity|split; [discriminate|intros _; match type of N2 with facts ?N = _ => change (facts N <> []) end; rewrite N2; discriminate]|exact N1]|]. split; [exact I|].
    match type of N2 with facts ?N = _ => change (Agree (said [] (hd :: l2)) (under (firstn plen (names ky) ++ names (KSingle p0)) (facts N))) end.
    rewrite N2, under_under, <- app_assoc. change (names (KSingle p0) ++ map k_key (p1 :: rest)) with (map k_key (p0 :: p1 :: rest)). rewrite <- Es. exact A.
Qed.

Lemma tables_says n : PTs n /\ TLs n /\ SBs n /\ AOs n /\ ALs n.
Proof.
  induction n as [|n (P & T & B & O & L)]; [repeat split; intros ? *; discriminate|].
  split; [apply PTs_step; assumption|]. split; [apply TLs_step; assumption|]. split; [apply SBs_step; assumption|]. split; [apply AOs_step; assumption|apply ALs_step; assumption].
Qed.
(** * Documents *)
Lemma under_nil fs : under [] fs = fs. Proof. unfold under. rewrite <- (map_id fs) at 2. apply map_ext. intros []. reflexivity. Qed.
Lemma cappend_grown c k it c' l : cappend false c k it = Ok c' -> tamec c -> tame it -> key_fine k -> Agree l (kfacts k it) -> grown [] l c c'.
Proof.
  intros H Hc Hi Hk HA. pose proof (cappend_f c k it Hc Hi Hk) as G. rewrite H in G. destruct G as [G1 G2]. split; [exact G2|]. exists (kfacts k it). split; [exact G1|]. rewrite under_nil. exact HA.
Qed.
Lemma body_says n : forall c st r st' l, bolpos st l -> body_loop false n c st = (Ok r, st') ->
  exists l1, pos st' (l ++ l1) /\ (no_element l1 -> tamec c -> grown [] (said [] l1) c r).
Proof.
  induction n as [|n IH]; intros c st r st' l P H; cbn [body_loop] in H; [discriminate|]. bix H. bix H.
  assert (Done : forall st0 : pst, (ret c : M container) st0 = (Ok r, st') -> pos st0 l -> exists l1, pos st' (l ++ l1) /\ (no_element l1 -> tamec c -> grown [] (said [] l1) c r)).
  { intros st0 E P0. injection E as <- <-. exists []. rewrite app_nil_r. split; [exact P0|]. intros _ Hc. apply grown_refl, Hc. }
  destruct (at_end st) eqn:Ee; cbn [orb] in H; [eapply Done; [exact H|apply bol_end; assumption]|].
  destruct (N.eqb_spec (cur st) chLBR) as [Ec|].
  { eapply Done; [exact H|]. destruct P as [[K _]|P]; [congruence|]. right. exists (p_pre st), []. rewrite app_nil_r. split; [reflexivity|]. split; [exact P|]. split; [constructor|exact Ec]. }
  bi H it s1 Q. apply (item_says _ _ _ _ _ P Ee) in Q. destruct it as [[k i]|]; [|eapply Done; eassumption]. bix H.
  match type of H with match ?x with _ => _ end s1 = _ => destruct x as [c'|] eqn:Em end.
  - assert (Em' : merge_ws i c s1 = Some c') by (destruct (match k with Some k0 => key_is_multi k0 | None => false end); [discriminate|exact Em]). clear Em. bix H.
    destruct k as [k|]; [destruct Q as (v & _ & _ & V & _); exfalso; destruct c; destruct i; try contradiction; discriminate|]. destruct Q as [B _]. apply (IH _ _ _ _ l) in H as (l1 & P1 & G1); [|exact B].
    exists l1. split; [exact P1|]. intros Hn Hc. destruct (merge_f _ _ _ _ Hc Em') as [T' E']. destruct (G1 Hn T') as (T & e & Pe & A). split; [exact T|]. exists e. rewrite <- E'. auto.
  - clear Em. bi H c' s2 Q2. apply wrap_inv in Q2 as [Q2 ->]. bix H. destruct k as [k|].
    + destruct Q as (v & B & Rv & V & Kf). apply (IH _ _ _ _ (l ++ [Pair (names k) v])) in H as (l1 & P1 & G1); [|exact B]. rewrite <- app_assoc in P1. exists ([Pair (names k) v] ++ l1). split; [exact P1|].
      intros Hn Hc. apply no_element_app in Hn as [_ N2]. destruct (valued_facts _ V) as [Fi Ti]. assert (G : grown [] [(names k, Some v)] c c').
      { eapply cappend_grown; [exact Q2|exact Hc|exact Ti|exact Kf|]. cbn [kfacts]. rewrite Fi. cbn [under map fst snd]. rewrite app_nil_r. apply Agree_one. split; [reflexivity|exact Rv]. }
      cbn [app said]. apply (grown_trans [] [_] _ c c' r G). apply G1; [exact N2|apply G].
    + destruct Q as (B & Si). apply (IH _ _ _ _ l) in H as (l1 & P1 & G1); [|exact B]. exists l1. split; [exact P1|]. intros Hn Hc. assert (Ti : tame i) by (apply tame_other; destruct i; try contradiction; reflexivity).
      assert (G : grown [] [] c c') by (eapply cappend_grown; [exact Q2|exact Hc|exact Ti|exact I|apply Agree_nil]). apply (grown_trans [] [] _ c c' r G). apply G1; [exact Hn|apply G].
Qed.
Lemma loop_says n : forall c st r st' l, pos st l -> tables_loop false n c st = (Ok r, st') ->
  exists l1, at_end st' = true /\ document' (p_pre st') (l ++ l1) /\ headed l1 /\ (no_element l1 -> tamec c -> grown [] (said [] l1) c r).
Proof.
  induction n as [|n IH]; intros c st r st' l P H; cbn [tables_loop] in H; [discriminate|]. bix H. destruct (at_end st) eqn:Ee.
  { injection H as <- <-. exists []. rewrite app_nil_r. split; [exact Ee|]. destruct P as [[_ P]|(X & a & _ & _ & _ & E)]; [|unfold at_end, cur in *; destruct (p_rest st); discriminate]. split; [exact P|]. split; [exact I|]. intros _ Hc. apply grown_refl, Hc. }
  bi H kt s1 Q. destruct (tables_says n) as (PT & _ & _ & AO & _). apply (PT _ _ _ _ _ _ _ P) in Q as (ia & ns & l2 & P1 & [Hne _] & HG). cbv zeta in HG. set (hd := if ia then Element ns else Table ns) in *.
  assert (HG' : no_element (hd :: l2) -> tame (snd kt) /\ key_fine (Some (fst kt)) /\ Agree (said [] (hd :: l2)) (kfacts (Some (fst kt)) (snd kt))).
  { intros Hn. apply HG; [exact Hn|]. destruct ns; [congruence|cbn; lia]. }
  clear HG. bi H v s2 Q2.
  assert (P2 : exists l3, pos s2 (l ++ hd :: l2 ++ l3) /\ (no_element (hd :: l2) -> l3 = [] /\ v = snd kt)).
  { assert (D : (ret (snd kt) : M item) s1 = (Ok v, s2) -> exists l3, pos s2 (l ++ hd :: l2 ++ l3) /\ (no_element (hd :: l2) -> l3 = [] /\ v = snd kt)).
    { intros K. injection K as <- <-. exists []. rewrite app_nil_r. auto. }
    destruct (snd kt) as [| | | | |tc m| | ] eqn:Ek; try (apply D; exact Q2). destruct (tm_aot m) eqn:Ea; [|apply D; exact Q2].
    apply (AO _ _ _ _ _ _ _ P1) in Q2 as [l3 P2]. exists l3. rewrite <- app_assoc in P2. split; [exact P2|]. intros Hn. apply HG' in Hn as (T & _). apply tame_inv in T as (T & _). congruence. }
  destruct P2 as (l3 & P2 & E2). bi H c' s3 Q3. apply wrap_inv in Q3 as [Q3 ->]. apply (IH _ _ _ _ _ P2) in H as (l4 & Ee' & D & Hd & G).
  rewrite <- app_assoc in D. exists ((hd :: l2 ++ l3) ++ l4). split; [exact Ee'|]. split; [exact D|]. split; [unfold hd; destruct ia; exact I|]. intros Hn Hc.
  apply no_element_app in Hn as [N1 N2]. change (hd :: l2 ++ l3) with ((hd :: l2) ++ l3) in *. apply no_element_app in N1 as [N1 _]. destruct (E2 N1) as [-> ->]. rewrite app_nil_r. destruct (HG' N1) as (T & K & A). rewrite said_app by exact Hd.
  assert (G1 : grown [] (said [] (hd :: l2)) c c') by (eapply cappend_grown; eassumption). eapply grown_trans; [exact G1|]. apply G; [exact N2|apply G1].
Qed.
Theorem parsed_says x d : parse x = Ok d -> exists l, document' x l /\ (no_element l -> tamec d /\ Agree (said [] l) (facts d)).
Proof.
  unfold parse, parse_gen, parse_doc. intros H. destruct (bind _ _ (start x)) as [[d0|e] st'] eqn:E; [|discriminate]. injection H as ->. bi E c s1 Q1. bi E c2 s2 Q2. injection E as <- ->.
  pose proof (good_body (parse_fuel x) false (empty_cont true) (start x)) as G1. rewrite Q1 in G1. destruct G1 as [w1 G1].
  pose proof (good_tables_loop (parse_fuel x) false c s1) as G2. rewrite Q2 in G2. destruct G2 as [w2 G2].
  apply (body_says _ _ _ _ _ []) in Q1 as (l1 & P1 & A1); [|right; constructor]. apply (loop_says _ _ _ _ _ _ P1) in Q2 as (l2 & Ee & D & Hd & A2). pose proof (moved_trans _ _ _ _ _ G1 G2) as [M1 M2]. cbn in M1, M2. unfold at_end in Ee. destruct (p_rest st'); [|discriminate].
  rewrite app_nil_r in M1. rewrite M2, <- M1 in D. exists (l1 ++ l2). split; [exact D|]. intros Hn. apply no_element_app in Hn as [N1 N2]. rewrite said_app by exact Hd.
  assert (B1 : grown [] (said [] l1) (empty_cont true) c) by (apply A1; [exact N1|apply tamec_empty]). assert (B2 : grown [] (said [] l1 ++ said [] l2) (empty_cont true) c2) by (eapply grown_trans; [exact B1|apply A2; [exact N2|apply B1]]).
  destruct B2 as (T & e & Pe & A). destruct (proj2 (parsing_facts false) c2 T) as [F1 F2]. split; [exact F2|]. rewrite F1. rewrite under_nil in A. eapply Agree_perm; [|exact A]. symmetry. exact Pe.
Qed.
End Doc.
