(** TextDoc: a strict parse loses nothing (C01). *)
From Verif Require Import Base Source Utils Items Container Arrays Parser Api Lemmas Escape Strings StringRT StringApi Numbers Reader Wf Errors Mono Text Render TextValue TextParse TextTree.
From Coq Require Import ZifyBool ZifyNat ZifyN.
Open Scope nat_scope.

(** The text of the finished entries: what was read, without the indentation of
    the header the reader stands at. *)
Definition done (st : pst) : str := if at_end st then p_pre st else firstn (p_mark st) (p_pre st).
Definition hpos (st : pst) : Prop := at_end st = true \/ (cur st = chLBR /\ p_mark st <= idx st /\ extract st <> [chLF]).
Lemma hpos_split st : hpos st -> at_end st = false -> p_pre st = done st ++ extract st /\ cur st = chLBR /\ extract st <> [chLF].
Proof.
  intros [H|(H1 & H2 & H3)] E; [congruence|]. unfold done. rewrite E. split; [|auto]. unfold extract. rewrite firstn_skipn. reflexivity.
Qed.
Lemma hpos_none st st' : item_read None st st' -> hpos st' /\ done st' = p_pre st.
Proof.
  intros (A & B & C & D). unfold adds in B. assert (E : at_end st' = false).
  { destruct (cur_cons _ _ C) as [r Hr]; [discriminate|]. unfold at_end. rewrite Hr. reflexivity. }
  split.
  - right. split; [exact C|]. split; [|exact D]. rewrite A. unfold idx. rewrite B, app_length. lia.
  - unfold done. rewrite E, A, B. unfold idx. apply firstn_length_app.
Qed.
Lemma hpos_end st : at_end st = true -> hpos st /\ done st = p_pre st.
Proof. intros H. split; [left; exact H|]. unfold done. rewrite H. reflexivity. Qed.

(** ** Leaves and implicit parents *)
Definition leaf_text (a : bool) (full : str) (t : trivia) (c : container) : str :=
  header (if a then [chLBR; chLBR] else [chLBR]) full (if a then [chRBR; chRBR] else [chRBR]) t ++ btext (Some full) false (c_body c).
Definition leaf_meta (t : trivia) (a : bool) (nm full : str) : tmeta := mkTM t a (Some false) (Some nm) (Some full).
Definition leaf_fine (t : trivia) (c : container) : Prop := negb (inb chLF (tr_trail t)) && cont_nonempty c = false.
Lemma leaf_render c t a nm full k pfx : leaf_fine t c -> k_dotted k = false -> render_table c (leaf_meta t a nm full) k pfx = leaf_text a full t c.
Proof.
  intros Hl Hk. rewrite render_table_eq. unfold table_head, table_key, table_is_super, leaf_meta, leaf_text. cbn [tm_super tm_disp tm_trivia tm_aot negb orb].
  unfold leaf_fine, cont_nonempty in Hl. rewrite Hl, app_nil_r, Hk. reflexivity.
Qed.
Lemma leaf_aot c t a nm full : render_aot_table c (leaf_meta t a nm full) full = leaf_text true full t c.
Proof. rewrite render_aot_eq. reflexivity. Qed.
Lemma rt_leaf_item c t a nm full k : k_dotted k = false -> rt (Some k, ITable c (leaf_meta t a nm full)).
Proof. intros. apply rt_leaf; [assumption|reflexivity]. Qed.
Lemma nest_text c t a nm full : leaf_fine t c -> tr_indent t <> [chLF] -> forall rest q parent, rest <> [] -> Forall skey_fresh rest ->
  (a = true -> full = q ++ [chDOT] ++ origs rest) ->
  let n := nest t rest parent c (leaf_meta t a nm full) a in
  btext (Some q) false (c_body n) = leaf_text a full t c /\ Forall keyedtab (c_body n) /\ Forall rt (c_body n).
Proof.
  intros Hl Hi. induction rest as [|x rest IH]; intros q parent Hr Hf Ha; [congruence|]. inversion Hf as [|? ? [Fx _] Fr]; subst. destruct rest as [|y rest].
  - cbn [nest singleton c_body]. rewrite btext_one. unfold leaf_item. destruct a.
    + split; [|split; (constructor; [|constructor])].
      * cbn [etext flat_map fst snd]. rewrite app_nil_r. cbn [prefixed]. specialize (Ha eq_refl). unfold origs in Ha. cbn [map join] in Ha. rewrite <- Ha. apply leaf_aot.
      * exists x. auto.
      * constructor. reflexivity.
    + split; [|split; (constructor; [|constructor])].
      * cbn [etext]. apply leaf_render; assumption.
      * exists x. auto.
      * apply rt_leaf_item. exact Fx.
  - cbv zeta. change (nest t (x :: y :: rest) parent c (leaf_meta t a nm full) a) with (singleton x (mk_table (nest t (y :: rest) (k_key x) c (leaf_meta t a nm full) a) t false true (Some (k_key x)) None)).
    destruct (IH (prefixed (Some q) (k_orig x)) (k_key x)) as (A & B & C); [discriminate|exact Fr| |].
    { intros E. rewrite (Ha E), (origs_cons x) by discriminate. cbn [prefixed]. rewrite <- !app_assoc. reflexivity. }
    set (n := nest t (y :: rest) _ _ _ _) in *. cbn [singleton c_body]. rewrite btext_one. cbn [mk_table etext]. rewrite Fx, andb_false_r. cbn [andb].
    split; [|split; (constructor; [|constructor])].
    + rewrite render_table_eq, head_super by auto. cbn [app]. unfold table_key. cbn [tm_disp]. rewrite Fx. exact A.
    + exists x. auto.
    + apply rt_super; auto.
Qed.

(** ** Headers *)
Lemma table_key_inv n st k st' : parse_table_key n st = (Ok k, st') -> parse_key n st = (Ok k, st').
Proof. unfold parse_table_key. destruct (parse_key n st) as [[x|[[] ? ?| | | | | | | | | | | | | |]] s1]; congruence. Qed.
Lemma set_sep_string s k : key_string (key_set_sep s k) = key_string k.
Proof. destruct k; reflexivity. Qed.
Lemma set_sep_fresh k : key_fresh k -> key_fresh (key_set_sep [] k).
Proof.
  destruct k as [k|ks s o]; [|auto]. intros (A & B & C & _). cbn [key_parts] in *. split; [reflexivity|]. split; [|split; [discriminate|exact I]].
  inversion B as [|? ? [D _] _]; subst. constructor; [|constructor]. split; [exact D|reflexivity].
Qed.
Lemma skeys_len a : forall b, skeys_eqb a b = true -> List.length a = List.length b.
Proof. induction a as [|x a IH]; intros [|y b] H; cbn in *; try discriminate; [reflexivity|]. apply andb_true_iff in H as [_ H]. f_equal. auto. Qed.
Lemma key_eqb_len a b : key_eqb a b = true -> List.length (key_parts a) = List.length (key_parts b).
Proof. destruct a, b; cbn; try discriminate; [reflexivity|]. intros H. apply skeys_len, H. Qed.
Lemma parts_set_sep s k : List.length (key_parts (key_set_sep s k)) = List.length (key_parts k).
Proof. destruct k; reflexivity. Qed.
Lemma child_len p c : is_child p c = true -> List.length (key_parts p) < List.length (key_parts c).
Proof.
  unfold is_child. intros H. apply andb_true_iff in H as [H1 H2]. apply negb_true_iff in H1. pose proof (skeys_len _ _ H2) as L.
  destruct (Nat.lt_ge_cases (List.length (key_parts p)) (List.length (key_parts c))) as [|G]; [assumption|]. rewrite firstn_all2 in H2 by exact G. congruence.
Qed.
Lemma eqb_set_sep a b s : key_eqb (key_set_sep s a) b = key_eqb a b.
Proof. destruct a, b; reflexivity. Qed.

(** What [_parse_table] leaves. *)
Definition tab_read (parent : option key) (ptext : option str) (stack : list key) (st : pst) (k : key) (it : item) (st' : pst) (a : bool) (full : key) : Prop :=
  hpos st' /\ wfi false false false it /\
  match skipn (match parent with Some p => List.length (key_parts p) | None => 0 end) (key_parts full) with
  | [] => a = true -> match stack with top :: _ => key_eqb full top | [] => false end = true -> key_string full = rendered_name ptext [] ->
      exists c m, it = ITable c m /\ wfc false false false c /\ done st' = done st ++ render_aot_table c m (key_string full)
  | p :: _ => k = KSingle p /\ rt (Some p, it) /\ done st' = done st ++ etext ptext false (Some p, it)
      /\ (stack = [] -> match it with ITable _ m => tm_aot m = false | _ => True end)
  end
  /\ (a = true -> key_string full = rendered_name ptext (skipn (match parent with Some p => List.length (key_parts p) | None => 0 end) (key_parts full))).
Definition PT n := forall parent ptext stack st k it st', hpos st -> parse_table true n parent ptext stack st = (Ok (k, it), st') ->
  exists a full, tab_read parent ptext stack st k it st' a full
    /\ key_parts full <> [] /\ forall b k0 s, peek_table n st = (Ok (b, k0), s) -> b = a /\ full = key_set_sep [] k0.
Definition TL n := forall full stack c st c' st' X, wfc false false false c -> Forall rt (c_body c) ->
  p_pre st = X ++ btext (Some (key_string full)) false (c_body c) -> table_loop true n full stack c st = (Ok c', st') ->
  hpos st' /\ wfc false false false c' /\ done st' = X ++ btext (Some (key_string full)) false (c_body c').
Definition SB n := forall full stack c st c' st' X, wfc false false false c -> Forall rt (c_body c) -> hpos st ->
  done st = X ++ btext (Some (key_string full)) false (c_body c) -> siblings true n full stack c st = (Ok c', st') ->
  hpos st' /\ wfc false false false c' /\ done st' = X ++ btext (Some (key_string full)) false (c_body c').
Definition elems_text (name : key) (l : list (container * tmeta)) : str := flat_map (fun p => render_aot_table (fst p) (snd p) (key_string name)) l.
Definition elems_ok (l : list (container * tmeta)) : Prop := Forall (fun x => wfc false false false (fst x)) l.
Definition AL n := forall payload name stack st l st', hpos st -> elems_ok payload -> aot_loop true n payload name (name :: stack) st = (Ok l, st') ->
  exists l2, l = payload ++ l2 /\ elems_ok l /\ hpos st' /\ done st' = done st ++ elems_text name l2.
Definition AO n := forall first name stack st it st', hpos st -> wfc false false false (fst first) -> parse_aot true n first name stack st = (Ok it, st') ->
  exists l, it = IAoT (first :: l) None true aot_trivia /\ elems_ok (first :: l) /\ hpos st' /\ done st' = done st ++ elems_text name l.

Lemma AO_step n : AL n -> AO (S n).
Proof.
  intros HA first name stack st it st' Hp Hw H. cbn [parse_aot] in H. bi H l s1 Q. apply HA in Q; [|exact Hp|constructor; [exact Hw|constructor]].
  destruct Q as (l2 & -> & W & P & D). inversion H; subst. exists l2. split; [|auto]. unfold aot_make. rewrite aot_appends_parsed by reflexivity. reflexivity.
Qed.
Lemma peek_state n st r st' : peek_table n st = (r, st') -> st' = st.
Proof. unfold peek_table, restoring_all. destruct (bind _ _ st). congruence. Qed.
Lemma AL_step n : PT n -> AL n -> AL (S n).
Proof.
  intros HP HA payload name stack st l st' Hp Hw H. cbn [aot_loop] in H. bix H. destruct (at_end st) eqn:Ee.
  { inversion H; subst. exists []. rewrite app_nil_r. cbn. rewrite app_nil_r. auto. }
  bi H pk s1 Q1. pose proof (peek_state _ _ _ _ Q1). subst s1. destruct pk as [b k0]. cbn [fst snd] in H. destruct (b && key_eqb k0 name) eqn:Ek.
  2:{ inversion H; subst. exists []. rewrite app_nil_r. cbn. rewrite app_nil_r. auto. }
  apply andb_true_iff in Ek as [-> Ek]. bi H kt s2 Q2. destruct kt as [k it]. cbn [snd] in H.
  destruct (HP _ _ _ _ _ _ _ Hp Q2) as (a & full & (T1 & T2 & T3 & T4) & _ & Pk). destruct (Pk _ _ _ Q1) as [<- ->]. clear Pk.
  assert (E : skipn (List.length (key_parts name)) (key_parts (key_set_sep [] k0)) = []).
  { apply skipn_all2. rewrite parts_set_sep, (key_eqb_len _ _ Ek). lia. }
  rewrite E in *. specialize (T4 eq_refl). cbn [rendered_name] in T4. destruct T3 as (c & m & -> & W & D); [reflexivity|rewrite eqb_set_sep; exact Ek|exact T4|].
  rewrite T4 in D. destruct (HA _ _ _ _ _ _ T1 (Forall_snoc _ _ (c, m) Hw W) H) as (l2 & -> & W2 & P2 & D2). exists ((c, m) :: l2). rewrite <- app_assoc. split; [reflexivity|].
  split; [rewrite <- app_assoc in W2; exact W2|]. split; [exact P2|]. rewrite D2, D, <- app_assoc. reflexivity.
Qed.
Lemma raw_append_spec c k it st c' st' : wfc false false false c -> wfi false false false it -> key_fine k -> Forall rt (c_body c) -> rt (norm_entry k it) ->
  table_append_m true c k it st = (Ok c', st') -> st' = st /\ wfc false false false c' /\ app_spec c (norm_entry k it) c'.
Proof.
  intros Hc Hi Hk Hr He H. unfold table_append_m in H. apply lift_inv in H as [H ->]. split; [reflexivity|].
  pose proof (table_raw_append_ok false false false true c k it Hc Hi Hk) as R. rewrite H in R. split; [exact R|].
  unfold table_raw_append in H. apply rbind_inv in H as (c1 & A & H). assert (c1 = c').
  { destruct (option_map _ k); [|congruence]. destruct (map_get _ _) as [[]|]; [congruence| |discriminate]. apply rbind_inv in H as (? & _ & H). congruence. }
  subst c1. eapply append_text; eauto.
Qed.
(** A table read inside a table. *)
Lemma child_step n full stack c st k it s1 s2 c' X (HP : PT n) b k0 sp :
  wfc false false false c -> Forall rt (c_body c) -> hpos st -> done st = X ++ btext (Some (key_string full)) false (c_body c) ->
  peek_table n st = (Ok (b, k0), sp) -> is_child full k0 = true ->
  parse_table true n (Some full) (Some (key_string full)) stack st = (Ok (k, it), s1) ->
  table_append_m true c (Some k) it s1 = (Ok c', s2) ->
  s2 = s1 /\ hpos s1 /\ wfc false false false c' /\ Forall rt (c_body c') /\ done s1 = X ++ btext (Some (key_string full)) false (c_body c').
Proof.
  intros Hc Hr Hp Hd Q1 Ch Q2 Q3. destruct (HP _ _ _ _ _ _ _ Hp Q2) as (a & fl & (T1 & T2 & T3 & _) & _ & Pk). destruct (Pk _ _ _ Q1) as [_ ->]. clear Pk.
  apply child_len in Ch. destruct (skipn _ _) as [|p rest] eqn:Es.
  { exfalso. apply (f_equal (@List.length skey)) in Es. rewrite skipn_length, parts_set_sep in Es. cbn in Es. lia. }
  destruct T3 as (-> & T3 & T4 & _). apply raw_append_spec in Q3; auto; [|exact I|cbn; apply rt_set_name; exact T3]. destruct Q3 as (-> & W & (A1 & _ & A3)).
  split; [reflexivity|]. split; [exact T1|]. split; [exact W|]. split; [exact A1|]. rewrite T4, Hd, A3, <- app_assoc. do 2 f_equal. cbn [norm_entry kstr]. symmetry. apply set_name_text.
Qed.
Lemma SB_step n : PT n -> SB n -> SB (S n).
Proof.
  intros HP HS full stack c st c' st' X Hc Hr Hp Hd H. cbn [siblings] in H. bix H. destruct (at_end st); [inversion H; subst; auto|].
  bi H pk s1 Q1. pose proof (peek_state _ _ _ _ Q1). subst s1. destruct pk as [b k0]. cbn [snd] in H. destruct (is_child full k0) eqn:Ek; [|inversion H; subst; auto].
  bi H kt s2 Q2. destruct kt as [k it]. bi H c1 s3 Q3. cbn [fst snd] in Q3. destruct (child_step n full stack c st k it s2 s3 c1 X HP b k0 st) as (-> & A & B & C & D); auto.
  eapply HS; eauto.
Qed.
Lemma merge_spec i c st c' pfx X : wfc false false false c -> Forall rt (c_body c) -> p_pre st = X ++ btext pfx false (c_body c) ++ item_string i -> merge_ws i c st = Some c' ->
  wfc false false false c' /\ Forall rt (c_body c') /\ p_pre st = X ++ btext pfx false (c_body c').
Proof.
  intros Hc Hr Hp H. assert (Wc : wfc false false false c') by (eapply (merge_ws_ok [] false false false false); try discriminate; eauto). split; [exact Wc|].
  destruct c as [body m p tks d]. unfold merge_ws in H. destruct i; try discriminate. destruct (rev body) as [|[k [l f| | | | | | |]] r] eqn:Er; try discriminate. inversion H; subst c'. clear H.
  assert (E : body = rev r ++ [(k, IWs l f)]) by (rewrite <- (rev_involutive body), Er; reflexivity). subst body. clear Er. cbn [c_body] in *. apply Forall_app in Hr as [R1 R2].
  apply Forall_inv in R2. assert (k = None) by (inversion R2; auto). subst k. rewrite btext_app, btext_one in Hp. cbn [etext item_string] in Hp.
  assert (Es : skipn (idx st - (List.length l + List.length s)) (p_pre st) = l ++ s).
  { unfold idx. rewrite Hp. rewrite <- (app_assoc _ l s), (app_assoc X). rewrite app_length, (app_length l). replace (_ + _ - _) with (List.length (X ++ btext pfx false (rev r))) by lia. apply skipn_length_app. }
  rewrite Es. split; [apply Forall_snoc; [exact R1|]; apply rt_other; auto|]. rewrite btext_app, btext_one. cbn [etext item_string]. rewrite Hp, <- !app_assoc. reflexivity.
Qed.
Lemma rt_item k i : is_table_or_aot i = false -> key_fine k -> (k <> None -> is_wsitem i = false) -> rt (norm_entry k i).
Proof.
  intros H Hk Hw. destruct k as [[k|ks s o]|].
  - cbn [norm_entry kstr]. apply rt_set_name. apply rt_other; [exact H|]. cbn [snd]. rewrite Hw by discriminate. discriminate.
  - cbn in Hk. destruct ks as [|x [|y rest]]; cbn in Hk; try lia. cbn [norm_entry]. apply rt_set_name. apply rt_dotted. reflexivity.
  - cbn [norm_entry kstr]. apply rt_other; auto.
Qed.
Lemma TL_step n : PT n -> SB n -> TL n -> TL (S n).
Proof.
  intros HP HS HT full stack c st c' st' X Hc Hr Hp H. cbn [table_loop] in H. bix H. destruct (at_end st) eqn:Ee.
  { inversion H; subst. destruct (hpos_end _ Ee) as [A B]. rewrite B. auto. }
  bi H r s1 Q1. apply parse_item_text in Q1. destruct r as [[k i]|].
  - destruct Q1 as (K & V & _ & Wk & Ad). bix H. destruct (merge_ws i c s1) as [c1|] eqn:Em.
    + assert (k = None). { destruct k; [|reflexivity]. exfalso. unfold merge_ws in Em. destruct c. destruct i; try discriminate. discriminate (Wk ltac:(discriminate)). }
      subst k. specialize (Ad (Some (key_string full))). cbn [norm_entry kstr etext] in Ad.
      destruct (merge_spec i c s1 c1 (Some (key_string full)) X Hc Hr) as (A & B & C); [unfold adds in Ad; rewrite Ad, Hp, <- app_assoc; reflexivity|exact Em|]. eapply HT; eauto.
    + bi H c1 s2 Q2. apply raw_append_spec in Q2; auto; [|apply wf_any; [reflexivity|exact V]|apply rt_item; auto]. destruct Q2 as (-> & W & (A1 & _ & A3)).
      eapply HT; eauto. unfold adds in Ad. rewrite (Ad (Some (key_string full))), Hp, A3, <- app_assoc. reflexivity.
  - apply hpos_none in Q1 as [P1 P2]. bix H. destruct (cur s1 =? chLBR)%N; [|discriminate]. bi H pk s2 Q2. pose proof (peek_state _ _ _ _ Q2). subst s2. destruct pk as [b k0]. cbn [snd] in H.
    assert (Hd : done s1 = X ++ btext (Some (key_string full)) false (c_body c)) by congruence.
    destruct (is_child full k0) eqn:Ek; [|inversion H; subst; auto].
    bi H kt s2 Q3. destruct kt as [k it]. bi H c1 s3 Q4. cbn [fst snd] in Q4. destruct (child_step n full stack c s1 k it s2 s3 c1 X HP b k0 s1) as (-> & A & B & C & D); auto.
    eapply HS; eauto.
Qed.
Lemma PT_step n : TL n -> AO n -> PT (S n).
Proof.
  intros HT HA parent ptext stack st k it st' Hp H. cbn [parse_table] in H. bix H. destruct (N.eqb_spec (cur st) chLBR) as [Ec|]; cbn [negb] in H; [|discriminate].
  assert (Hne : at_end st = false). { destruct (cur_cons _ _ Ec) as [r Hr]; [discriminate|]. unfold at_end. rewrite Hr. reflexivity. }
  destruct (hpos_split _ Hp Hne) as (Hpre & _ & Hlf). bix H. set (indent := extract st) in *. bi H b1 s1 Q1. destruct (incM_adds _ _ _ _ Q1 Ec) as [I1 _]; [discriminate|].
  bix H. destruct (at_end s1) eqn:E1; [discriminate|]. bix H. bi H a s2 Q2.
  assert (Ia : adds (if a then [chLBR] else []) s1 s2 /\ (if (cur s1 =? chLBR)%N then bind incM (fun _ => ret true) else ret false) s1 = (Ok a, s2)).
  { destruct (N.eqb_spec (cur s1) chLBR) as [Ec1|].
    - bi Q2 b2 s3 Q3. destruct (incM_adds _ _ _ _ Q3 Ec1) as [J1 _]; [discriminate|]. destruct b2; [|discriminate]. inversion Q2; subst. split; [exact J1|].
      rewrite bind_ok with (a := true) (st1 := s2) by exact Q3. reflexivity.
    - inversion Q2; subst. split; [apply adds_refl; reflexivity|reflexivity]. }
  clear Q2. destruct Ia as [I2 Pa]. bi H ky s3 Q3. pose proof Q3 as Pkey. apply table_key_inv in Q3. apply parse_key_text in Q3 as [I3 Fk].
  assert (Peek : forall b k0 s, peek_table (S n) st = (Ok (b, k0), s) -> b = a /\ k0 = ky).
  { intros b k0 s Hq. unfold peek_table, restoring_all in Hq.
    match type of Hq with (let '(_, _) := ?m st in _) = _ => assert (Hm : m st = (Ok (a, ky), s3)) end.
    { rewrite bind_ok with (a := cur st) (st1 := st) by reflexivity. rewrite Ec. cbn [N.eqb negb]. change (chLBR =? chLBR)%N with true. cbn [negb].
      rewrite bind_ok with (a := b1) (st1 := s1) by exact Q1. rewrite bind_ok with (a := cur s1) (st1 := s1) by reflexivity.
      rewrite bind_ok with (a := a) (st1 := s2) by exact Pa. rewrite bind_ok with (a := ky) (st1 := s3); [reflexivity|].
      destruct (mle_table_key false n (S n) (Nat.le_succ_diag_r n) s2) as [(e & x & X & _)|X]; rewrite Pkey in X; [discriminate|exact X]. }
    rewrite Hm in Hq. inversion Hq. auto. }
  clear Pa Pkey. bix H. bix H. destruct (at_end s3); [discriminate|]. destruct (N.eqb_spec (cur s3) chRBR) as [Ec3|]; cbn [negb] in H; [|discriminate]. cbv zeta in H.
  match type of H with (if ?b then _ else _) _ = _ => destruct b; [discriminate|] end.
  set (full := key_set_sep [] ky) in *. pose proof (set_sep_fresh _ Fk) as Ff. fold full in Ff. assert (Ks : key_string full = key_string ky) by apply set_sep_string. rewrite <- Ks in I3.
  clear Ks. assert (Fp : Forall skey_fresh (key_parts full)) by apply Ff.
  exists a, full. enough (G : tab_read parent ptext stack st k it st' a full).
  { split; [exact G|]. split; [apply Ff|]. intros b k0 s Hq. destruct (Peek b k0 s Hq) as [-> ->]. auto. }
  clear Peek Ff Fk. clearbody full. clear ky.
  bi H b4 s4 Q4. destruct (incM_adds _ _ _ _ Q4 Ec3) as [I4 _]; [discriminate|]. bix H. bi H u5 s5 Q5. apply lossy_inv in Q5 as [L1 ->].
  bi H b6 s6 Q6. assert (I6 : adds (if a then [chRBR] else []) s4 s6).
  { destruct a; cbn [andb] in L1; [|inversion Q6; subst; apply adds_refl; reflexivity]. destruct (N.eqb_spec (cur s4) chRBR) as [Ec4|]; [|discriminate].
    apply (incM_adds _ _ _ _ Q6 Ec4). discriminate. }
  clear Q6. bi H ct s7 Q7. destruct ct as [[cws cm] tr]. apply comment_trail_text in Q7 as (I7 & _ & _); [|left; reflexivity]. cbn [fst snd] in I7.
  bi H u8 s8 Q8. apply lossy_inv in Q8 as [L5 ->]. bi H u9 s9 Q9. apply lossy_inv in Q9 as [L9 ->].
  set (t := mkTrivia indent cws cm tr) in *.
  assert (Hdr : p_pre s7 = done st ++ header (if a then [chLBR; chLBR] else [chLBR]) (key_string full) (if a then [chRBR; chRBR] else [chRBR]) t).
  { unfold adds in *. rewrite I7, I6, I4, I3, I2, I1, Hpre. unfold header, t. cbn [tr_indent tr_cws tr_comment tr_trail]. destruct a; cbn [app]; rewrite <- !app_assoc; reflexivity. }
  bi H c s10 Q10. apply (HT full stack (empty_cont true) s7 c s10 (p_pre s7)) in Q10; [|apply wfc_empty|constructor|cbn; rewrite app_nil_r; reflexivity].
  destruct Q10 as (P10 & W10 & D10). rewrite Hdr, <- app_assoc in D10. fold (leaf_text a (key_string full) t c) in D10.
  bi H u11 s11 Q11. apply lift_inv in Q11 as [_ ->]. bi H u12 s12 Q12. apply lossy_inv in Q12 as [L8 ->].
  assert (Lf : leaf_fine t c) by (unfold leaf_fine, t; cbn [tr_trail]; cbn [andb] in L8; exact L8).
  assert (Hlf' : tr_indent t <> [chLF]) by exact Hlf. clear L8 L1 I1 I2 I3 I4 I6 I7 Hdr Hpre Hlf Q1 Q4 Hne E1 Ec Ec3.
  unfold tab_read. set (plen := match parent with Some p => List.length (key_parts p) | None => 0 end) in *.
  assert (L5' : a = true -> key_string full = rendered_name ptext (skipn plen (key_parts full))).
  { intros ->. cbn [andb] in L5. apply negb_false_iff in L5. apply str_eqb_eq in L5. exact L5. }
  clear L5. assert (Fs : Forall skey_fresh (skipn plen (key_parts full))).
  { rewrite <- (firstn_skipn plen) in Fp. apply Forall_app in Fp. apply Fp. }
  destruct (skipn plen (key_parts full)) as [|p rest] eqn:Es.
  - (* the parent's own name: an element of an array *)
    match type of H with (if ?b then _ else _) _ = _ => destruct b eqn:Eb end.
    + bi H ao s13 Q13. assert (Z : k = full /\ it = ao /\ st' = s13) by (inversion H; auto). destruct Z as (-> & -> & ->).
      apply HA in Q13; [|exact P10|exact W10]. destruct Q13 as (l & -> & W & P & D).
      split; [exact P|]. split; [constructor; [reflexivity|discriminate|eapply Forall_impl; [|exact W]; intros x Hx; split; [split; discriminate|exact Hx]]|]. split; [|exact L5'].
      intros -> X. cbn [andb] in Eb. destruct stack; [discriminate|]. rewrite X in Eb. discriminate.
    + inversion H; subst. split; [exact P10|]. split; [constructor; [split; discriminate|exact W10]|]. split; [|exact L5'].
      intros -> _ _. eexists. eexists. split; [reflexivity|]. split; [exact W10|]. rewrite D10. f_equal. symmetry. apply leaf_aot.
  - inversion Fs as [|? ? [Fd _] Fr]; subst. destruct rest as [|y rest].
    + (* one name *)
      match type of H with (if ?b then _ else _) _ = _ => destruct b eqn:Eb end.
      * bi H ao s13 Q13. assert (Z : k = KSingle p /\ it = ao /\ st' = s13) by (inversion H; auto). destruct Z as (-> & -> & ->).
        apply HA in Q13; [|exact P10|exact W10]. destruct Q13 as (l & -> & W & P & D). apply andb_true_iff in Eb as [-> _].
        split; [exact P|]. split; [constructor; [reflexivity|discriminate|eapply Forall_impl; [|exact W]; intros x Hx; split; [split; discriminate|exact Hx]]|]. split; [|exact L5'].
        split; [reflexivity|]. split; [constructor; reflexivity|]. split; [|intros _; exact I]. rewrite D, D10, <- app_assoc. f_equal. cbn [etext flat_map fst snd].
        specialize (L5' eq_refl). assert (Er : prefixed ptext (k_orig p) = key_string full) by (rewrite L5'; destruct ptext; reflexivity). rewrite Er. f_equal.
        symmetry. apply leaf_aot.
      * inversion H; subst. split; [exact P10|]. split; [constructor; [split; discriminate|exact W10]|]. split; [|exact L5'].
        split; [reflexivity|]. split; [apply rt_leaf_item; exact Fd|]. split.
        -- rewrite D10. f_equal. cbn [etext]. rewrite Fd, andb_false_r. cbn [andb]. symmetry. apply leaf_render; assumption.
        -- intros ->. cbn [tm_aot]. rewrite andb_true_r in Eb. exact Eb.
    + (* implicit parents *)
      assert (Z : st' = s10 /\ k = KSingle p) by (inversion H; auto). destruct Z as [-> ->].
      match type of H with ret (_, ?i) _ = _ => assert (Z : it = i) by (inversion H; auto) end. clear H.
      destruct (nest_text c t a (k_key (last (y :: rest) p)) (key_string full) Lf Hlf' (y :: rest) (prefixed ptext (k_orig p)) (k_key p)) as (N1 & N2 & N3); [discriminate|exact Fr| |].
      { intros Ea. rewrite (L5' Ea). unfold rendered_name. rewrite (origs_cons p) by discriminate. destruct ptext; cbn [prefixed]; rewrite <- ?app_assoc; reflexivity. }
      subst it. fold (leaf_meta t a (k_key (last (y :: rest) p)) (key_string full)).
      set (nst := nest t (y :: rest) _ _ _ _) in *. split; [exact P10|]. split; [apply wf_table; [split; discriminate|apply nest_ok; [exact W10|split; discriminate|discriminate|reflexivity]]|]. split; [|exact L5'].
      split; [reflexivity|]. split; [apply rt_super; auto; discriminate|]. split.
      * rewrite D10. f_equal. cbn [etext]. rewrite Fd, andb_false_r. cbn [andb]. rewrite render_table_eq, head_super by (auto; discriminate). cbn [app]. unfold table_key. cbn [tm_disp].
        rewrite Fd. symmetry. exact N1.
      * intros ->. cbn [tm_aot existsb]. apply andb_false_r.
Qed.
Lemma tables_text n : PT n /\ TL n /\ SB n /\ AL n /\ AO n.
Proof.
  induction n as [|n (HP & HT & HS & HA & HO)].
  - repeat split; repeat intro; cbn in *; discriminate.
  - split; [apply PT_step; assumption|]. split; [apply TL_step; assumption|]. split; [apply SB_step; assumption|]. split; [apply AL_step; assumption|apply AO_step; assumption].
Qed.

(** ** Documents *)
Lemma wrap_inv r st c st' : wrap_append r st = (Ok c, st') -> r = Ok c /\ st' = st.
Proof. destruct r as [x|[]]; cbn; intros H; inversion H; auto. Qed.
Lemma cappend_spec c k it c' : wfc false false false c -> wfi false false false it -> key_fine k -> Forall rt (c_body c) -> rt (norm_entry k it) ->
  cappend true c k it = Ok c' -> wfc false false false c' /\ app_spec c (norm_entry k it) c'.
Proof.
  intros Hc Hi Hk Hr He H. pose proof (cappend_ok false false false true c k it Hc Hi Hk) as R. rewrite H in R. split; [exact R|]. eapply append_text; eauto.
Qed.
Lemma body_text n : forall c st c' st', wfc false false false c -> Forall rt (c_body c) -> p_pre st = btext None false (c_body c) -> p_mark st = idx st ->
  body_loop true n c st = (Ok c', st') -> hpos st' /\ wfc false false false c' /\ Forall rt (c_body c') /\ done st' = btext None false (c_body c').
Proof.
  induction n as [|n IH]; intros c st c' st' Hc Hr Hp Hm H; [discriminate|]. cbn [body_loop] in H. bix H. bix H.
  destruct (at_end st) eqn:Ee; cbn [orb] in H.
  { inversion H; subst. destruct (hpos_end _ Ee) as [A B]. rewrite B. auto. }
  destruct (N.eqb_spec (cur st) chLBR) as [Ec|].
  { inversion H; subst. split; [right; split; [exact Ec|]; split; [lia|]; unfold extract; rewrite Hm; unfold idx; rewrite skipn_all; discriminate|]. split; [exact Hc|]. split; [exact Hr|].
    unfold done. rewrite Ee, Hm. unfold idx. rewrite firstn_all. exact Hp. }
  bi H r s1 Q1. apply parse_item_text in Q1. destruct r as [[k i]|].
  2:{ apply hpos_none in Q1 as [P1 P2]. inversion H; subst. rewrite P2. auto. }
  destruct Q1 as (K & V & _ & Wk & Ad). bix H.
  match type of H with (match ?x with Some _ => _ | None => _ end) _ = _ => destruct x as [c1|] eqn:Em end.
  - assert (k = None /\ merge_ws i c s1 = Some c1) as [-> Em'].
    { destruct k as [k|]; [|auto]. exfalso. destruct (key_is_multi k); [discriminate|]. unfold merge_ws in Em. destruct c. destruct i; try discriminate. discriminate (Wk ltac:(discriminate)). }
    specialize (Ad None). cbn [norm_entry kstr etext] in Ad.
    destruct (merge_spec i c s1 c1 None [] Hc Hr) as (A & B & C); [unfold adds in Ad; rewrite Ad, Hp; reflexivity|exact Em'|]. bix H. apply (IH c1 (set_mark s1)); [exact A|exact B|exact C|reflexivity|exact H].
  - bi H c1 s2 Q2. apply wrap_inv in Q2 as [Q2 ->]. apply cappend_spec in Q2; auto; [|apply wf_any; [reflexivity|exact V]|apply rt_item; auto]. destruct Q2 as (W & (A1 & _ & A3)).
    bix H. apply (IH c1 (set_mark s1)); [exact W|exact A1| |reflexivity|exact H]. cbn [set_mark p_pre]. unfold adds in Ad. rewrite (Ad None), Hp, A3. reflexivity.
Qed.
Lemma tables_loop_text n : forall c st c' st', wfc false false false c -> Forall rt (c_body c) -> hpos st -> done st = btext None false (c_body c) ->
  tables_loop true n c st = (Ok c', st') -> at_end st' = true /\ done st' = btext None false (c_body c').
Proof.
  induction n as [|n IH]; intros c st c' st' Hc Hr Hp Hd H; [discriminate|]. cbn [tables_loop] in H. bix H. destruct (at_end st) eqn:Ee; [inversion H; subst; auto|].
  bi H kt s1 Q1. destruct kt as [k it]. cbn [fst snd] in H. destruct (proj1 (tables_text n) _ _ _ _ _ _ _ Hp Q1) as (a & full & (T1 & T2 & T3 & _) & Kn & _). cbn [skipn] in T3.
  bi H v s2 Q2. destruct (key_parts full) as [|p rest] eqn:Ek.
  { congruence. }
  destruct T3 as (-> & T3 & T4 & T5). specialize (T5 eq_refl). assert (Z : v = it /\ s2 = s1).
  { destruct it; try (inversion Q2; auto; fail). rewrite T5 in Q2. inversion Q2; auto. }
  destruct Z as [-> ->]. bi H c1 s3 Q3. apply wrap_inv in Q3 as [Q3 ->]. apply cappend_spec in Q3; auto; [|exact I|cbn; apply rt_set_name; exact T3]. destruct Q3 as (W & (A1 & _ & A3)).
  eapply IH; [exact W|exact A1|exact T1| |exact H]. rewrite T4, Hd, A3. f_equal. cbn [norm_entry kstr]. symmetry. apply set_name_text.
Qed.
Lemma strict_lossless s d : parse_gen true s = Ok d -> cont_string d = s.
Proof.
  unfold parse_gen. intros H. destruct (parse_doc true (parse_fuel s) (start s)) as [r st'] eqn:E. cbn [fst] in H. subst r. pose proof (doc_end _ _ _ _ _ E) as He.
  destruct (good_doc true (parse_fuel s) (start s)) as [w Hw]. rewrite E in Hw. cbn [snd] in Hw. destruct Hw as [W1 W2]. rewrite He, app_nil_r in W1. cbn in W1, W2.
  unfold parse_doc in E. bi E c1 s1 Q1. apply body_text in Q1; [|apply wfc_empty|constructor|reflexivity|reflexivity]. destruct Q1 as (A & B & C & D).
  bi E c2 s2 Q2. apply tables_loop_text in Q2; auto. destruct Q2 as [F G]. assert (Z : d = parsing_cont false c2 /\ st' = s2) by (inversion E; auto). destruct Z as [-> ->].
  rewrite parsing_cont_string, cont_string_eq, <- G. unfold done. rewrite F, W2. symmetry. exact W1.
Qed.
