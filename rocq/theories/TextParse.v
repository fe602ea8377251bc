(** TextParse: what a successful strict read of a value, a key/value pair or an
    item consumed is what the item renders as. *)
From Verif Require Import Base Source Utils Items Container Arrays Parser Api Lemmas Escape Strings StringRT StringApi Numbers Reader Wf Text Render TextValue.
From Coq Require Import ZifyBool ZifyNat ZifyN.
Open Scope nat_scope.

Lemma adv_adv p st : p_rest (adv_while p st) = drop_while p (p_rest st).
Proof. reflexivity. Qed.
Lemma take_after_drop p s : take_while p (drop_while p s) = [].
Proof. apply take_while_nil. destruct (drop_while p s) eqn:E; [exact I|]. eapply drop_while_head, E. Qed.
Lemma since_adv p st : skipn (idx st) (p_pre (adv_while p st)) = take_while p (p_rest st) /\ adds (take_while p (p_rest st)) st (adv_while p st).
Proof. split; [unfold idx; cbn; apply skipn_length_app|reflexivity]. Qed.
Lemma nonempty_false s : nonempty s = false -> s = [].
Proof. destruct s; [reflexivity|discriminate]. Qed.
Lemma lossy_inv b n st a st' : lossy_if b n st = (Ok a, st') -> b = false /\ st' = st.
Proof. destruct b; cbn; intros H; [discriminate|inversion H; auto]. Qed.
Lemma lift_inv {A} (r : res A) st a st' : lift r st = (Ok a, st') -> r = Ok a /\ st' = st.
Proof. unfold lift. intros H. inversion H; auto. Qed.

(** ** Key/value pairs *)
(** [pv] reads values as they are rendered. *)
Definition vreads (pv : M item) : Prop := forall st v st', pv st = (Ok v, st') -> read_value v st st'.
Lemma set_trivia_get t v : value_item v -> item_trivia (set_trivia t v) = t /\ item_string (set_trivia t v) = item_string v /\ value_item (set_trivia t v).
Proof. intros H. destruct v; cbn [value_item] in H; try contradiction; try subst; repeat split. Qed.

Lemma kv_with_text pv n b st k it st' : vreads pv -> key_value_with true pv n b st = (Ok (k, it), st') ->
  exists k0 sep, k = key_set_sep sep k0 /\ key_fresh k0 /\ value_item it
  /\ tr_indent (item_trivia it) = take_while is_spaces (p_rest st)
  /\ adds (kv_text (key_string k0) sep it) st st' /\ lastc (item_string it)
  /\ (b = false -> tail_text it = []).
Proof.
  intros Hpv H. unfold key_value_with in H. bix H. bix H. bix H. destruct (take_extract is_spaces st) as [X1 X2]. rewrite X1 in H. set (s1 := adv_while _ _) in *.
  bi H k0 s2 Q2. apply parse_key_text in Q2 as [K1 K2]. bi H sep s3 Q3. apply parse_sep_text in Q3. bi H v s4 Q4. apply Hpv in Q4 as (V1 & V2 & V3 & V4 & V5).
  cbv zeta in H. bi H t s5 Q5. assert (Z : k = key_set_sep sep k0 /\ it = set_trivia t v /\ st' = s5) by (inversion H; auto). clear H. destruct Z as (-> & -> & ->).
  destruct (set_trivia_get t v V2) as (T1 & T2 & T3). exists k0, sep. unfold kv_text, tail_text. rewrite T1, T2.
  assert (P : adds (take_while is_spaces (p_rest st) ++ key_string k0 ++ sep ++ item_string v ++ tr_cws (item_trivia v)) st s4).
  { eapply adds_trans; [exact X2|]. eapply adds_trans; [exact K1|]. eapply adds_trans; [exact Q3|exact V1]. }
  destruct b.
  - bi Q5 ct s6 Q6. destruct ct as [[cws cm] tr]. apply comment_trail_text in Q6 as (C1 & _ & _); [|left; reflexivity]. cbn [fst snd] in C1.
    bi Q5 u s7 Q7. apply lossy_inv in Q7 as [Q7 ->]. inversion Q5; subst. cbn [tr_indent tr_cws tr_comment tr_trail].
    repeat (split; [solve [auto]|]). split; [|split; [exact V5|discriminate]].
    pose proof (adds_trans _ _ _ _ _ P C1) as R. repeat (cbn [app] in R; rewrite <- app_assoc in R).
    assert (E : tr_cws (item_trivia v) ++ cws = if nonempty (tr_cws (item_trivia v)) then tr_cws (item_trivia v) else cws).
    { cbn [andb] in Q7. destruct (nonempty (tr_cws (item_trivia v))) eqn:E1; cbn [andb] in Q7.
      - apply nonempty_false in Q7. rewrite Q7, app_nil_r. reflexivity.
      - apply nonempty_false in E1. rewrite E1. reflexivity. }
    rewrite <- E. rewrite <- app_assoc. exact R.
  - bi Q5 u s7 Q7. apply lossy_inv in Q7 as [Q7 ->]. cbn [andb] in Q7. apply nonempty_false in Q7. inversion Q5; subst. cbn [tr_indent tr_cws tr_comment tr_trail].
    rewrite Q7, V4 in *. cbn [app]. do 4 (split; [solve [auto]|]). split; [|split; [exact V5|reflexivity]]. exact P.
Qed.

(** ** Appending a value *)
Lemma key_fresh_fine k sep : key_fresh k -> key_fine (Some (key_set_sep sep k)).
Proof. intros (_ & _ & _ & H). destruct k; [exact I|exact H]. Qed.
Lemma append_value n c k it v c' : wfc false false false c -> key_fine k -> is_table_or_aot it = false -> append n Own true c k it v = Ok c' ->
  c_body c' = c_body c ++ [norm_entry k it].
Proof.
  intros Hc Hk Hi H. destruct n as [|n]; [discriminate|]. destruct (append_shape n c k it v c' Hc Hk H) as (_ & n' & S & _). inversion S as [E|? k' ? ? ? ? ? ? E1 ? ? ? ? E2|? k' ? ? ? ? ? ? ? ? ? E1 ? ? E2].
  - exact E.
  - exfalso. subst k. cbn in E2. destruct it; discriminate.
  - exfalso. subst k. cbn in E2. destruct it; discriminate.
Qed.
Lemma add_elem_text c k it st c' st' : wfc false false false c -> key_fine k -> is_table_or_aot it = false -> add_elem true c k it st = (Ok c', st') ->
  c_body c' = c_body c ++ [norm_entry k it] /\ wfc false false false c' /\ st' = st.
Proof.
  intros Hc Hk Hi H. unfold add_elem in H. apply lift_inv in H as [H ->]. split; [eapply append_value; eauto|]. split; [|reflexivity].
  pose proof (cappend_ok false false false true c k it Hc) as R. rewrite H in R. apply R; [apply wf_any; [reflexivity|exact Hi]|exact Hk].
Qed.

(** ** Values *)
Definition nl_next (st : pst) : Prop := p_rest st = [] \/ exists c x, p_rest st = c :: x /\ is_nl c = true.
(** The state of the array loop. *)
Definition ainv (elems : list aelem) (prev : option bool) (st : pst) : Prop :=
  fitsall elems empty_group
  /\ (g_comment (glast elems empty_group) <> None -> nl_next st)
  /\ (prev = Some true -> g_comma (glast elems empty_group) = None).
Definition areads (n : nat) : Prop := forall elems prev st v st', ainv elems prev st -> array_loop true n elems prev st = (Ok v, st') ->
  exists gs w, v = IArray gs default_trivia false /\ adds w st st' /\ flat_map gtext gs ++ [chRBR] = flat_map elem_text elems ++ w.
(** The state of the inline table loop: [w] was read behind the opening brace. *)
Definition iinv (c : container) (tc : option bool) (w : str) : Prop :=
  wfc false false false c /\
  match tc with
  | Some false => exists b0 k v ws, c_body c = b0 ++ (Some k, v) :: ws /\ lastc (ient k v) /\ Forall spaces_entry ws /\ w = ctext b0 ++ ient k v ++ ctext ws
  | Some true => w = ctext (c_body c)
  | None => w = ctext (c_body c) /\ Forall spaces_entry (c_body c)
  end.
Definition ireads (n : nat) : Prop := forall c tc w st v st', iinv c tc w -> inline_loop true n c tc st = (Ok v, st') ->
  exists u c', v = IInline c' default_trivia false /\ adds u st st' /\ item_string v = [chLCB] ++ w ++ u.

Lemma glast_gwf elems : gwf (glast elems empty_group).
Proof.
  assert (G : forall l g, gwf g -> gwf (glast l g)).
  { induction l as [|e l IH]; intros g Hg; [exact Hg|]. cbn. apply IH, gstep_wf, Hg. }
  apply G. intros _. split; reflexivity.
Qed.
Lemma ainv_ws elems prev st st' s : ainv elems prev st -> inb chCOMMA s = false -> ainv (elems ++ [EWs s]) prev st'.
Proof.
  intros (A & B & C) Hs. unfold ainv. rewrite glast_app. cbn [gstep]. rewrite Hs. cbn [g_comment g_comma].
  split; [|split; [congruence|reflexivity]]. apply fitsall_app. split; [exact A|]. cbn [fits]. rewrite Hs. discriminate.
Qed.
Lemma ws_nocomma p s : p chCOMMA = false -> inb chCOMMA (take_while p s) = false.
Proof.
  intros Hp. destruct (inb _ _) eqn:E; [|reflexivity]. apply inb_In in E. pose proof (take_while_all p s) as F. rewrite Forall_forall in F. apply F in E. congruence.
Qed.
Lemma array_step n : vreads (parse_value true n) -> areads n -> areads (S n).
Proof.
  intros HV HA elems prev st v st' Hinv H. cbn [array_loop] in H. bix H. bix H. bix H. destruct (since_adv is_ws st) as [X1 X2]. rewrite X1 in H.
  set (ind := take_while is_ws (p_rest st)) in *. set (s1 := adv_while is_ws st) in *. bix H.
  assert (Rec : forall e prev' s2 w, adds w s1 s2 -> ainv (elems ++ [e]) prev' s2 -> elem_text e = ind ++ w -> array_loop true n (elems ++ [e]) prev' s2 = (Ok v, st') ->
    exists gs w, v = IArray gs default_trivia false /\ adds w st st' /\ flat_map gtext gs ++ [chRBR] = flat_map elem_text elems ++ w).
  { intros e prev' s2 w W1 W2 W3 W4. destruct (HA _ _ _ _ _ W2 W4) as (gs & u & E1 & E2 & E3). exists gs, ((ind ++ w) ++ u). split; [exact E1|].
    split; [eapply adds_trans; [eapply adds_trans; [exact X2|exact W1]|exact E2]|]. rewrite E3, flat_map_app. cbn [flat_map]. rewrite W3, app_nil_r, <- app_assoc. reflexivity. }
  assert (Hind : inb chCOMMA ind = false) by (apply ws_nocomma; reflexivity).
  destruct (existsb is_nl ind) eqn:En.
  { apply (Rec (EWs ind) prev s1 []); [apply adds_refl; reflexivity|eapply ainv_ws; eauto|symmetry; apply app_nil_r|exact H]. }
  assert (Hcm : forall c r, p_rest st = c :: r -> g_comment (glast elems empty_group) <> None -> is_nl c = true -> False).
  { intros c r Hr _ Hc. assert (is_ws c = true) by (unfold is_ws; rewrite Hc; apply orb_true_r). unfold ind in En. rewrite Hr in En. cbn [take_while] in En. rewrite H0 in En. cbn [existsb] in En.
    rewrite Hc in En. discriminate. }
  assert (HN : p_rest s1 <> [] -> g_comment (glast elems empty_group) = None).
  { intros Hr. destruct (g_comment _) eqn:Eg; [|reflexivity]. exfalso. destruct Hinv as (_ & B & _). rewrite Eg in B. destruct B as [B|(c & x & B & B')]; [discriminate| |].
    - apply Hr. unfold s1. cbn. rewrite B. reflexivity.
    - eapply Hcm; [exact B|congruence|exact B']. }
  destruct (N.eqb_spec (cur s1) chHASH) as [Eh|Nh].
  { bi H ct s2 Q2. destruct ct as [[cws cm] tr]. apply comment_trail_text in Q2; [|right; exact Eh]. cbn [fst snd] in Q2. destruct Q2 as (C1 & C2 & C3).
    specialize (C2 Eh). destruct (C3 eq_refl) as [C4 C5]. subst cws tr. cbn [app] in C1. rewrite app_nil_r in C1.
    apply (Rec (EComment (mkTrivia ind [] cm [])) prev s2 cm); [exact C1| |cbn [elem_text]; unfold comment_string; cbn [tr_indent tr_comment tr_trail]; rewrite app_nil_r; reflexivity|exact H].
    destruct Hinv as (A & B & C). unfold ainv. rewrite glast_app. cbn [gstep g_comment g_comma]. split; [|split; [intros _; exact C5|exact C]].
    apply fitsall_app. split; [exact A|]. cbn [fits]. apply HN. destruct (cur_cons _ _ Eh) as [r ->]; discriminate. }
  destruct (nonempty ind) eqn:Ei.
  { apply (Rec (EWs ind) prev s1 []); [apply adds_refl; reflexivity|eapply ainv_ws; eauto|symmetry; apply app_nil_r|exact H]. }
  apply nonempty_false in Ei. cbv zeta in H.
  set (next := bind current _) in H.
  assert (Hnext : forall s2, p_pre s2 = p_pre s1 -> p_rest s2 = p_rest s1 -> next s2 = (Ok v, st') ->
    exists gs w, v = IArray gs default_trivia false /\ adds w st st' /\ flat_map gtext gs ++ [chRBR] = flat_map elem_text elems ++ w).
  { intros s2 P1 P2 HH. unfold next in HH. clear H next. bix HH. destruct prev as [[|]|].
    1: destruct (N.eqb_spec (cur s2) chCOMMA) as [Ec|].
    1:{ bi HH x s3 Q3. destruct (inc_exn_adds _ _ _ _ _ Q3 Ec) as [I1 _].
        apply (Rec (EWs [chCOMMA]) (Some false) s3 [chCOMMA]); [unfold adds in *; rewrite I1, P1; reflexivity| |rewrite Ei; reflexivity|exact HH].
        destruct Hinv as (A & B & C). assert (G1 : g_comment (glast elems empty_group) = None).
        { apply HN. rewrite <- P2. destruct (cur_cons _ _ Ec) as [r ->]; discriminate. }
        unfold ainv. rewrite glast_app. cbn [gstep]. change (inb chCOMMA [chCOMMA]) with true. cbn [g_comment g_comma]. rewrite G1.
        split; [|split; [congruence|discriminate]]. apply fitsall_app. split; [exact A|]. cbn [fits]. intros _. split; [apply C; reflexivity|exact G1]. }
    all: destruct (N.eqb_spec (cur s2) chRBR) as [Er|]; [|discriminate].
    all: bi HH x s3 Q3; destruct (incM_adds _ _ _ _ Q3 Er) as [I1 _]; [discriminate|].
    all: assert (Z : v = IArray (group_values elems) default_trivia false /\ st' = s3) by (inversion HH; auto).
    all: destruct Z as [-> ->]; exists (group_values elems), [chRBR]; (split; [reflexivity|]); rewrite group_values_text by apply Hinv.
    all: split; [|reflexivity]; unfold adds in *; rewrite I1, P1, X2, Ei, app_nil_r; reflexivity. }
  assert (G : (prev = Some true -> False) -> match parse_value true n s1 with
              | (Ok v0, st'0) => if true && nonempty (tr_cws (item_trivia v0)) then (Err (LossyE 2), st'0) else array_loop true n (elems ++ [EVal v0]) (Some true) st'0
              | (Err (ParseErr (KUnexpectedChar _) _ _), st'0) => if true && negb (idx st'0 =? idx s1) && (cur st'0 =? chRBR)%N then (Err (LossyE 4), st'0) else next st'0
              | (Err e, st'0) => (Err e, st'0)
              end = (Ok v, st') -> exists gs w, v = IArray gs default_trivia false /\ adds w st st' /\ flat_map gtext gs ++ [chRBR] = flat_map elem_text elems ++ w).
  { clear H. intros Hp H. destruct (parse_value true n s1) as [[x|e] s2] eqn:Ep.
    - cbn [andb] in H. destruct (nonempty (tr_cws _)) eqn:Ew; [discriminate|]. apply nonempty_false in Ew. apply HV in Ep as (V1 & V2 & V3 & V4 & V5). rewrite Ew, app_nil_r in V1.
      apply (Rec (EVal x) (Some true) s2 (item_string x) V1); [|rewrite Ei; reflexivity|exact H]. destruct Hinv as (A & B & C). unfold ainv. rewrite glast_app.
      pose proof (glast_gwf elems) as W. cbn [gstep]. destruct (g_value (glast elems empty_group)) eqn:Eg; cbn [g_comment g_comma].
      + split; [apply fitsall_app; split; [exact A|exact I]|]. split; [congruence|reflexivity].
      + destruct (W Eg) as [W1 W2]. rewrite W1, W2. split; [apply fitsall_app; split; [exact A|exact I]|]. split; [congruence|reflexivity].
    - destruct e as [[] ? ?| | | | | | | | | | | | | |]; try discriminate. cbn [andb] in H. destruct (Nat.eqb_spec (idx s2) (idx s1)) as [E|]; cbn [negb andb] in H.
      2:{ exfalso. destruct (cur s2 =? chRBR)%N eqn:Eb; [discriminate|]. unfold next in H. bix H. rewrite Eb in H. destruct prev as [[|]|]; [specialize (Hp eq_refl); exact Hp| |]; discriminate. }
      destruct (good_value true n s1) as [w Hw]. rewrite Ep in Hw. cbn [snd] in Hw. pose proof (moved_idx _ _ _ Hw) as L. destruct w; [|exfalso; clear - L E; cbn [List.length] in L; lia].
      destruct Hw as [W1 W2]. cbn [app] in W1. apply (Hnext s2); [rewrite W2; apply app_nil_r|symmetry; exact W1|exact H]. }
  destruct prev as [[|]|]; [apply (Hnext s1); auto|apply G; [discriminate|exact H]|apply G; [discriminate|exact H]].
Qed.
Lemma ctext_app a b : ctext (a ++ b) = ctext a ++ ctext b.
Proof. apply flat_map_app. Qed.
Lemma inline_step n : vreads (parse_value true n) -> ireads n -> ireads (S n).
Proof.
  intros HV HI c tc w st v st' (Hc & Hinv) H. cbn [inline_loop] in H. bix H. bix H. bix H. destruct (since_adv is_spaces st) as [X1 X2]. rewrite X1 in H.
  set (raw := take_while is_spaces (p_rest st)) in *. set (s1 := adv_while is_spaces st) in *.
  assert (Ws : forall raw c0 s s2 c2, Forall (fun c => is_spaces c = true) raw -> wfc false false false c0 ->
     (if nonempty raw then add_elem true c0 None (IWs raw false) else ret c0) s = (Ok c2, s2) ->
     s2 = s /\ wfc false false false c2 /\ exists ws, Forall spaces_entry ws /\ c_body c2 = c_body c0 ++ ws /\ ctext ws = raw).
  { clear. intros raw c0 s s2 c2 Hr Hc H. destruct (nonempty raw) eqn:E.
    - apply add_elem_text in H as (A & B & ->); [|exact Hc|exact I|reflexivity]. split; [reflexivity|]. split; [exact B|]. exists [norm_entry None (IWs raw false)].
      split; [constructor; [|constructor]; exists raw, false; auto|]. split; [exact A|]. cbn. apply app_nil_r.
    - apply nonempty_false in E. subst raw. inversion H; subst. split; [reflexivity|]. split; [exact Hc|]. exists []. rewrite app_nil_r. auto. }
  bi H c1 s1' Q1. apply Ws in Q1; [|apply take_while_all|exact Hc]. destruct Q1 as (-> & Hc1 & ws & W1 & W2 & W3). bix H.
  assert (Fin : incM s1 = (Ok true, snd (incM s1)) -> True) by auto. clear Fin.
  assert (Inv1 : iinv c1 tc (w ++ raw)).
  { split; [exact Hc1|]. rewrite W2. destruct tc as [[|]|].
    - rewrite ctext_app, W3, Hinv. reflexivity.
    - destruct Hinv as (b0 & k & it & ws0 & B1 & B2 & B3 & B4). exists b0, k, it, (ws0 ++ ws). rewrite B1, <- app_assoc. split; [reflexivity|]. split; [exact B2|].
      split; [apply Forall_app; auto|]. rewrite B4, ctext_app, W3, <- !app_assoc. reflexivity.
    - destruct Hinv as [B1 B2]. rewrite ctext_app, W3, B1. split; [reflexivity|apply Forall_app; auto]. }
  assert (Loop : forall c2 tc2 u s2, iinv c2 tc2 (w ++ raw ++ u) -> adds u s1 s2 -> inline_loop true n c2 tc2 s2 = (Ok v, st') ->
    exists u c', v = IInline c' default_trivia false /\ adds u st st' /\ item_string v = [chLCB] ++ w ++ u).
  { intros c2 tc2 u s2 J1 J2 J3. destruct (HI _ _ _ _ _ _ J1 J3) as (u2 & c' & E1 & E2 & E3). exists (raw ++ u ++ u2), c'. split; [exact E1|].
    split; [eapply adds_trans; [exact X2|eapply adds_trans; [exact J2|exact E2]]|]. rewrite E3, <- !app_assoc. reflexivity. }
  clear Hinv. destruct (_ && (cur s1 =? chRCB)%N) eqn:Eend.
  { apply andb_true_iff in Eend as [E1 E2]. apply N.eqb_eq in E2. bi H x s2 Q2. destruct (incM_adds _ _ _ _ Q2 E2) as [I1 _]; [discriminate|].
    assert (Z : v = IInline c1 default_trivia false /\ st' = s2) by (inversion H; auto). destruct Z as [-> ->]. exists (raw ++ [chRCB]), c1. split; [reflexivity|].
    split; [eapply adds_trans; [exact X2|exact I1]|]. destruct Inv1 as [_ Inv1]. destruct c1 as [body m p tks d]. cbn [c_body] in *. destruct tc as [[|]|]; [discriminate| |].
    - destruct Inv1 as (b0 & k & it & ws0 & B1 & B2 & B3 & B4). rewrite (app_assoc w raw), B4. clear - B1 B2 B3. subst body. rewrite inline_text_kv by assumption. rewrite <- !app_assoc. reflexivity.
    - destruct Inv1 as [B1 B2]. rewrite (app_assoc w raw), B1. apply inline_text_ws, B2. }
  match type of H with (if ?b then _ else _) _ = _ => destruct b eqn:Etc end; [discriminate|].
  assert (Hw : w ++ raw = ctext (c_body c1)).
  { destruct Inv1 as [_ Inv1]. destruct tc as [[|]|]; [exact Inv1|discriminate|apply Inv1]. }
  bi H kv s2 Q2. destruct kv as [k it]. apply kv_with_text in Q2; [|exact HV]. destruct Q2 as (k0 & sep & -> & F & Vi & Ind & Ad & Lc & Tl). specialize (Tl eq_refl).
  assert (Ind0 : tr_indent (item_trivia it) = []). { rewrite Ind. unfold s1. cbn [adv_while p_rest]. apply take_after_drop. }
  unfold kv_text in Ad. rewrite Ind0, Tl, app_nil_r in Ad. cbn [app] in Ad.
  bi H c2 s2' Q3. cbn [fst snd] in Q3. apply add_elem_text in Q3 as (A1 & A2 & ->); [|exact Hc1|apply key_fresh_fine, F|destruct it; try contradiction; reflexivity].
  destruct (norm_ient k0 it sep Vi F Ind0 Tl) as (k' & N1 & N2). set (e := norm_entry _ _) in *. destruct e as [ek ev]. cbn [fst snd] in N1, N2. subst ek.
  bix H. bix H. bix H. destruct (since_adv is_spaces s2) as [Y1 Y2]. rewrite Y1 in H. set (raw2 := take_while is_spaces (p_rest s2)) in *. set (s3 := adv_while is_spaces s2) in *.
  bi H c3 s3' Q4. apply Ws in Q4; [|apply take_while_all|exact A2]. destruct Q4 as (-> & Hc3 & ws2 & V1 & V2 & V3). bix H.
  assert (Lk : lastc (ient k' ev)) by (rewrite N2; do 2 apply lastc_app; exact Lc).
  assert (Ad2 : adds (ient k' ev ++ raw2) s1 s3) by (rewrite N2; eapply adds_trans; [exact Ad|exact Y2]).
  rewrite A1 in V2. rewrite <- app_assoc in V2. cbn [app] in V2.
  destruct (N.eqb_spec (cur s3) chCOMMA) as [Ec|].
  - bi H u s4 Q5. apply lossy_inv in Q5 as [Q5 ->]. cbn [andb] in Q5. apply nonempty_false in Q5. bi H x s5 Q6. destruct (inc_exn_adds _ _ _ _ _ Q6 Ec) as [I1 _].
    eapply (Loop _ _ ((ient k' ev ++ raw2) ++ [chCOMMA]) _); [|eapply adds_trans; [exact Ad2|exact I1]|exact H]. split; [exact Hc3|].
    rewrite V2, (app_assoc w raw), Hw, ctext_app. f_equal. cbn [ctext flat_map fst snd]. fold (ctext ws2). rewrite V3, Q5, !app_nil_r. reflexivity.
  - eapply (Loop _ _ (ient k' ev ++ raw2) _); [|exact Ad2|exact H]. split; [exact Hc3|]. exists (c_body c1), k', ev, ws2. split; [exact V2|]. split; [exact Lk|]. split; [exact V1|].
    rewrite (app_assoc w raw), Hw, V3. reflexivity.
Qed.
Lemma iinv_start : iinv (empty_cont true) None [].
Proof. split; [apply wfc_empty|]. split; [reflexivity|constructor]. Qed.
Lemma ainv_start st : ainv [] None st.
Proof. split; [exact I|]. split; [intros X; exfalso; apply X; reflexivity|discriminate]. Qed.
Lemma value_step n : areads n -> ireads n -> vreads (parse_value true (S n)).
Proof.
  intros HA HI st v st' H. cbn [parse_value] in H. bix H. bix H.
  destruct (N.eqb_spec (cur (set_mark st)) chDQ); [eapply string_text_read; [|exact H]; reflexivity|].
  destruct (N.eqb_spec (cur (set_mark st)) chSQ); [eapply string_text_read; [|exact H]; reflexivity|].
  destruct (_ =? 116)%N; [eapply bool_text_read; exact H|]. destruct (_ =? 102)%N; [eapply bool_text_read; exact H|].
  destruct (N.eqb_spec (cur (set_mark st)) chLBR) as [E|].
  { bi H x s1 Q1. destruct (inc_exn_adds _ _ _ _ _ Q1 E) as [I1 _]. destruct (HA _ _ _ _ _ (ainv_start s1) H) as (gs & w & -> & A & B). cbn [flat_map app] in B.
    unfold read_value. rewrite array_string. cbn [item_trivia default_trivia tr_cws tr_indent tr_comment]. rewrite B, app_nil_r. split; [eapply adds_trans; [exact I1|exact A]|].
    repeat split. rewrite <- B. do 2 apply lastc_app. exists [], chRBR. split; [reflexivity|discriminate]. }
  destruct (N.eqb_spec (cur (set_mark st)) chLCB) as [E1|].
  { bi H x s1 Q1. destruct (inc_exn_adds _ _ _ _ _ Q1 E1) as [I1 _]. destruct (HI _ _ _ _ _ _ iinv_start H) as (u & c' & E & A & B). unfold read_value. rewrite B. subst v.
    cbn [item_trivia default_trivia tr_cws tr_indent tr_comment app]. rewrite app_nil_r. split; [eapply (adds_trans [chLCB]); [exact I1|exact A]|].
    repeat split. destruct c' as [body m p tks d]. rewrite inline_string in B. cbn [app] in B. rewrite <- B. apply lastc_app. exists [], chRCB. split; [reflexivity|discriminate]. }
  bi H p s1 Q1. assert (s1 = set_mark st) by (inversion Q1; reflexivity). subst s1. clear Q1.
  destruct (_ || _ || _)%N; [eapply signed_text; exact H|]. destruct (is_ascii_digit _); [eapply digit_text; exact H|discriminate].
Qed.
Lemma values_text n : vreads (parse_value true n) /\ areads n /\ ireads n.
Proof.
  induction n as [|n (HV & HA & HI)].
  - split; [|split]; repeat intro; cbn in *; discriminate.
  - split; [apply value_step; assumption|]. split; [apply array_step; assumption|apply inline_step; assumption].
Qed.
Lemma value_text n st v st' : parse_value true n st = (Ok v, st') -> read_value v st st'.
Proof. apply values_text. Qed.
Lemma parse_kv_text n b st k it st' : parse_key_value true n b st = (Ok (k, it), st') ->
  exists k0 sep, k = key_set_sep sep k0 /\ key_fresh k0 /\ value_item it /\ adds (kv_text (key_string k0) sep it) st st'.
Proof.
  intros H. apply kv_with_text in H; [|intros a b0 c; apply value_text]. destruct H as (k0 & sep & A & B & C & _ & D & _). exists k0, sep. auto.
Qed.

(** ** Items *)
(** What [_parse_item] returns: an entry without a key, or a key and a value; its text
    was read.  At a header nothing but blanks was read, and the marker is before them. *)
Definition item_read (r : option (option key * item)) (st st' : pst) : Prop :=
  match r with
  | Some (k, i) => key_fine k /\ is_table_or_aot i = false /\ (k = None -> is_wsitem i = true \/ exists t, i = IComment t)
      /\ (k <> None -> is_wsitem i = false)
      /\ forall pfx, adds (etext pfx false (norm_entry k i)) st st'
  | None => p_mark st' = idx st /\ adds (extract st') st st' /\ cur st' = chLBR /\ extract st' <> [chLF]
  end.
Lemma item_head_text st h st' : item_head st = (Ok h, st') ->
  match h with
  | HItem i => (is_wsitem i = true \/ exists t, i = IComment t) /\ adds (item_string i) st st'
  | HTable => p_mark st' = idx st /\ adds (extract st') st st' /\ cur st' = chLBR /\ extract st' <> [chLF]
  | HKeyValue => True
  end.
Proof.
  intros H. unfold item_head in H. bix H. bix H. bix H. bix H. bix H. destruct (take_extract is_blank st) as [X1 X2]. set (s1 := adv_while _ _) in *. rewrite X1 in H.
  assert (Mk : marked (take_while is_blank (p_rest st)) s1).
  { rewrite <- X1. apply (mark_read (adv_whileM is_blank) st (Ok tt)); auto with good keeps. }
  destruct (at_end s1 && _). { inversion H; subst. cbn. auto. }
  destruct (N.eqb_spec (cur s1) chLF) as [El|].
  { bi H b s2 Q2. destruct (incM_adds _ _ _ _ Q2 El) as [I1 I2]; [discriminate|]. bix H. inversion H; subst. cbn [is_wsitem item_string]. split; [auto|].
    rewrite (marked_extract _ _ (marked_adds _ _ _ _ Mk I1 I2)). eapply adds_trans; [exact X2|exact I1]. }
  destruct (N.eqb_spec (cur s1) chHASH) as [Eh|].
  { bi H ct s2 Q2. destruct ct as [[cws cm] tr]. apply comment_trail_text in Q2; [|right; exact Eh]. cbn [fst snd] in Q2. destruct Q2 as (C1 & C2 & _). specialize (C2 Eh). subst cws.
    inversion H; subst. split; [eauto|]. cbn [item_string]. unfold comment_string. cbn [tr_indent tr_comment tr_trail]. eapply adds_trans; [exact X2|exact C1]. }
  destruct (N.eqb_spec (cur s1) chLBR); inversion H; subst; [|exact I]. split; [reflexivity|]. rewrite X1. repeat (split; [solve [auto]|]).
  intros E. pose proof (take_while_all is_blank (p_rest st)) as F. rewrite E in F. inversion F; discriminate.
Qed.
Lemma parse_item_text n st r st' : parse_item true n st = (Ok r, st') -> item_read r st st'.
Proof.
  intros H. unfold parse_item in H. destruct (restore_on_err item_head st) as [[h|] s1] eqn:Eh; [|discriminate]. apply restore_inv in Eh. apply item_head_text in Eh. destruct h as [i| |].
  - inversion H; subst. destruct Eh as [A B]. cbn [item_read]. split; [exact I|]. split; [destruct A as [A|[t ->]]; [destruct i; try discriminate|]; reflexivity|].
    split; [intros _; exact A|]. split; [congruence|]. intros pfx. cbn [norm_entry kstr etext]. exact B.
  - inversion H; subst. exact Eh.
  - clear Eh. bi H kv s2 Q2. destruct kv as [k it]. inversion H; subst. apply parse_kv_text in Q2 as (k0 & sep & -> & F & Vi & Ad). cbn [item_read fst snd].
    split; [apply key_fresh_fine, F|]. split; [destruct it; try contradiction; reflexivity|]. split; [discriminate|]. split; [intros _; destruct it; try contradiction; reflexivity|].
    intros pfx. rewrite norm_text by assumption. exact Ad.
Qed.
