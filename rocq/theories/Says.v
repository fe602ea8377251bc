(** Says: the parser reads strings, keys and lines as Meaning.v says (C39). *)
From Verif Require WordChars.
From Verif Require Import Base Source Utils Items Container Arrays Parser Api Lemmas Escape Strings StringRT StringApi Numbers Unicode Reader Errors Control Text TextParse TextDoc Grammar GramSound Meaning.
From Coq Require Import ZifyBool ZifyNat ZifyN.
Open Scope nat_scope.

(** * Strings *)
Lemma unicode_val b st v ex st' : peek_unicode b st = (Ok (Some (v, ex)), st') -> dig 16 ex -> v = positional 16 ex.
Proof.
  unfold peek_unicode, restoring_all. match goal with |- (let '(r, _) := ?m st in _) = _ -> _ => destruct (m st) as [r0 st0] eqn:E end.
  intros H. inversion H; subst. clear H. bix E. destruct (negb _); [discriminate|]. bi E b0 s1 F1. bix E. bi E ok s2 F2. destruct ok; [|discriminate]. cbn [negb] in E. bix E.
  destruct (match extract s2 with [] => _ | _ => _ end); [discriminate|]. destruct (py_int (extract s2) 16) as [z|] eqn:Ep; [|discriminate]. destruct (_ && _)%bool; [|discriminate]. injection E as <- <- _. intros D.
  destruct (extract s2) as [|c r] eqn:Ex; [discriminate Ep|]. rewrite py_int_hex in Ep; [|exact D|discriminate]. injection Ep as <-. lia.
Qed.
Lemma short_esc c x : escaped_value c = Some x -> In (c, x) short_escapes.
Proof.
  unfold escaped_value, short_escapes. intros H. repeat match type of H with (if (?a =? ?b)%N then _ else _) = _ => destruct (N.eqb_spec a b) as [->|] end; try discriminate; injection H as <-; cbn [In]; tauto.
Qed.
Lemma escaped_says ml st v st' : parse_escaped_char ml st = (Ok v, st') ->
  exists w, moved w st st' /\ ((escape_says (chBSL :: w) v) \/ (ml = true /\ v = [] /\ Forall space_c w /\ In 10%N w /\ no_head space_c (p_rest st'))).
Proof.
  unfold parse_escaped_char. intros H. bix H. destruct (ml && is_ws (cur st))%bool eqn:F1.
  - apply andb_true_iff in F1 as [-> Ew]. bi H tmp s1 F2. unfold skip_ws_exn in F2. destruct (_ && _)%bool; [discriminate|]. injection F2 as <- <-. destruct (inb chLF _) eqn:El; [|discriminate]. injection H as <- <-.
    eexists. split; [apply adv_moved|]. right. split; [reflexivity|]. split; [reflexivity|]. split; [apply taken; intros c; apply space_ws|]. split; [apply inb_In in El; exact El|].
    cbn [adv_while p_rest]. pose proof (drop_head is_ws (p_rest st)) as D. destruct (drop_while is_ws (p_rest st)) as [|c r]; [exact I|]. cbn. revert D. chp.
  - destruct (escaped_value (cur st)) as [x|] eqn:F2.
    + bi H u s1 F3. apply inc_exn_moved in F3. injection H as <- <-. exists [cur st]. split; [exact F3|]. left. apply xs_short, short_esc, F2.
    + destruct ((cur st =? 117) || (cur st =? 85))%N%bool eqn:F3; [|discriminate]. bi H u s1 F4. destruct u as [[x ex]|]; [|discriminate]. bi H b s2 F5. injection H as <- <-.
      pose proof (unicode_len _ _ _ _ _ F4) as Hl. pose proof (unicode_val _ _ _ _ _ F4) as Hv. apply unicode_rest in F4 as (-> & r & Hr & _). unfold inc_nM in F5. destruct (inc_n _ st) as [b5 s5] eqn:En. injection F5 as _ <-.
      change (S (List.length ex)) with (List.length (cur st :: ex)) in En. apply inc_n_full with (r := r) in En; [|exact Hr]. exists (cur st :: ex). split; [exact En|]. left.
      destruct (N.eqb_spec (cur st) 85) as [E|E]; [rewrite E; apply xs_U; assumption|]. assert (E' : cur st = 117%N) by lia. rewrite E'. apply xs_u; assumption.
Qed.
Lemma says_any b ml q j k w m : pieces_say b ml q j w m -> hd_error w <> Some q -> pieces_say b ml q k w m.
Proof.
  intros H Hh. destruct H; [constructor|apply sy_char; assumption|apply sy_escape; assumption|apply sy_continued; assumption|]. exfalso. apply Hh. reflexivity.
Qed.
Lemma quotes_say b q k w m : k < 3 -> (hd_error w <> Some q) -> pieces_say b true q 0 w m -> pieces_say b true q 0 (repeat q k ++ w) (repeat q k ++ m).
Proof.
  intros Hk Hh H. destruct k as [|[|[|k]]]; cbn [repeat app]; [exact H| | |lia].
  - apply sy_quote; [reflexivity|lia|]. eapply says_any; eassumption.
  - apply sy_quote; [reflexivity|lia|]. apply sy_quote; [reflexivity|lia|]. eapply says_any; eassumption.
Qed.
Lemma firstn_repeat {A} (x : A) j k : j <= k -> firstn j (repeat x k) = repeat x j.
Proof. revert k. induction j as [|j IH]; intros [|k] H; try reflexivity; [lia|]. cbn. rewrite IH by lia. reflexivity. Qed.
Definition str_val (r : scalar) : str := match r with SStr _ v _ => v | _ => [] end.
Lemma string_loop_says n : forall d v e st r st', (e = true -> st_basic d = true) -> string_loop n d v e st = (Ok r, st') ->
  exists b m, moved (b ++ st_value d) st st' /\ str_val r = v ++ m /\
    if e then exists u w m1 m2, b = u ++ w /\ m = m1 ++ m2 /\ pieces_say (st_basic d) (st_multiline d) (st_unit d) 0 w m2 /\
       (escape_says (chBSL :: u) m1 \/ (st_multiline d = true /\ m1 = [] /\ Forall space_c u /\ In 10%N u /\ no_head space_c w))
    else pieces_say (st_basic d) (st_multiline d) (st_unit d) 0 b m.
Proof.
  induction n as [|n IH]; intros d v e st r st' He H; cbn [string_loop] in H; [discriminate|].
  bix H. destruct (negb e && bad_string_char _ _)%bool eqn:Eb; [discriminate|].
  destruct (negb e && (cur st =? st_unit d)%N)%bool eqn:Eq.
  - apply andb_true_iff in Eq as [Ee Eq]. apply negb_true_iff in Ee as ->. apply N.eqb_eq in Eq. rewrite bind_ok with (a := extract st) (st1 := st) in H by reflexivity.
    pose proof (st_value_repeat d) as SV. destruct (st_multiline d) eqn:Eml.
    + rewrite bind_ok with (a := st) (st1 := st) in H by reflexivity. cbv zeta in H.
      set (p := fun x => (x =? st_unit d)%N) in *. bi H x s1 Q1.
      assert (X1 : moved (take_while p (p_rest st)) st s1) by (injection Q1 as _ <-; apply adv_moved).
      assert (X2 : hd_error (p_rest s1) <> Some (st_unit d)).
      { injection Q1 as _ <-. cbn [adv_while p_rest]. pose proof (drop_head p (p_rest st)) as D. destruct (drop_while p (p_rest st)) as [|c y]; [discriminate|]. cbn. intros K. injection K as ->. unfold p in D. rewrite N.eqb_refl in D. discriminate. }
      clear Q1. destruct (take_unit (st_unit d) (p_rest st)) as [k Ek]. fold p in Ek. rewrite Ek in *.
      rewrite repeat_length in H. destruct (Nat.ltb_spec k 3).
      * destruct (IH d _ false _ _ _ (nobool _) H) as (b & m & B1 & B3 & B2). rewrite Eml in B2. exists (repeat (st_unit d) k ++ b), (repeat (st_unit d) k ++ m). split.
        { rewrite <- app_assoc. eapply moved_trans; eassumption. }
        split; [rewrite app_assoc; exact B3|]. apply quotes_say; [lia| |exact B2]. destruct B1 as [B1 _]. rewrite B1 in X2. destruct b as [|c b]; [discriminate|]. exact X2.
      * assert (G : k <= 5 /\ s1 = st' /\ str_val r = v ++ repeat (st_unit d) (k - 3)).
        { destruct (Nat.eqb_spec k 3) as [E3|]; [injection H as <- <-; cbn [str_val]; rewrite E3; cbn [Nat.sub repeat]; rewrite app_nil_r; split; [lia|split; reflexivity]|]. destruct (Nat.leb_spec 6 k); [bix H; discriminate|]. injection H as <- <-. cbn [str_val]. rewrite firstn_repeat by lia. split; [lia|split; reflexivity]. }
        clear H. destruct G as (G & -> & Gv). exists (repeat (st_unit d) (k - 3)), (repeat (st_unit d) (k - 3)). rewrite SV. rewrite <- repeat_split. replace (k - 3 + 3) with k by lia. split; [exact X1|]. split; [exact Gv|].
        rewrite <- (app_nil_r (repeat _ _)). apply quotes_say; [lia|discriminate|constructor].
    + bi H b s1 Q1. injection H as <- <-. apply (incM_moved _ _ _ _ Q1) in Eq; [|apply unit_nonnul]. exists [], []. rewrite SV. split; [exact Eq|]. split; [cbn [str_val]; rewrite app_nil_r; reflexivity|constructor].
  - destruct (st_basic d && e)%bool eqn:F1.
    + apply andb_true_iff in F1 as [Ebs ->]. bi H u s1 Q1. apply escaped_says in Q1 as (w & W1 & W2). destruct (IH d _ false _ _ _ (nobool _) H) as (b & m & B1 & B3 & B2).
      exists (w ++ b), (u ++ m). split; [rewrite <- app_assoc; eapply moved_trans; eassumption|]. split; [rewrite app_assoc; exact B3|]. exists w, b, u, m. split; [reflexivity|]. split; [reflexivity|]. split; [exact B2|].
      destruct W2 as [W2|(M1 & M2 & M3 & M4 & M5)]; [left; exact W2|]. right. split; [exact M1|]. split; [exact M2|]. split; [exact M3|]. split; [exact M4|].
      destruct B1 as [B1 _]. rewrite B1 in M5. destruct b as [|c b]; [exact I|exact M5].
    + assert (e = false) as -> by (destruct e; [rewrite He in F1 by reflexivity; discriminate|reflexivity]). cbn [negb andb] in Eb, Eq.
      destruct (st_basic d && (cur st =? chBSL)%N)%bool eqn:F2.
      * apply andb_true_iff in F2 as [Ebs Ec]. apply N.eqb_eq in Ec. bi H u s1 Q1. apply inc_exn_moved in Q1. rewrite Ec in Q1.
        destruct (IH d _ true _ _ _ (fun _ => Ebs) H) as (b & m & B1 & B3 & u' & w & m1 & m2 & -> & -> & P2 & P1). exists ((chBSL :: u') ++ w), (m1 ++ m2). split; [exact (moved_trans _ _ _ _ _ Q1 B1)|]. split; [exact B3|].
        destruct P1 as [P1|(M1 & -> & M3 & M4 & M5)]; [apply sy_escape; assumption|]. cbn [app]. apply sy_continued; assumption.
      * bi H u s1 Q1. apply inc_exn_moved in Q1. destruct (IH d _ false _ _ _ (nobool _) H) as (b & m & B1 & B3 & B2). exists (cur st :: b), (cur st :: m). split.
        { exact (moved_trans _ _ _ _ _ Q1 B1). }
        split; [rewrite B3, <- app_assoc; reflexivity|]. apply sy_char; [| | |exact B2].
        -- apply N.eqb_neq in Eq. exact Eq.
        -- intros Ebs Ec. rewrite Ebs, Ec in F2. discriminate.
        -- clear -Eb. destruct (st_multiline d); revert Eb; chp.
Qed.
Lemma skip_nl_says st u st' : skip_first_newline st = (Ok u, st') -> exists w, moved w st st' /\
  (w = [10]%N \/ w = [13; 10]%N \/ (w = [] /\ no_head (fun c => c = 10%N) (p_rest st) /\ forall r, p_rest st <> 13%N :: 10%N :: r)).
Proof.
  unfold skip_first_newline. intros H. bix H. destruct (N.eqb_spec (cur st) chLF) as [E|E].
  - apply inc_exn_moved in H. rewrite E in H. exists [10]%N. split; [exact H|left; reflexivity].
  - bi H tw s1 Q1. assert (s1 = mkSt (p_pre st) (p_rest st) (p_mark s1) /\ (forall c, tw = Some c -> exists r, p_rest st = cur st :: c :: r \/ c = chNUL) /\ (forall a c r, p_rest st = a :: c :: r -> tw = Some c)) as (F1 & F2 & F4).
    { unfold restoring in Q1. destruct st as [pre [|c r] mk]; cbn in Q1; injection Q1 as <- <-; cbn; (split; [reflexivity|]); (split; [|]); [intros c0 K; discriminate|discriminate| |].
      - intros c0 K. destruct r as [|d r]; [discriminate|]. unfold cur in K; cbn in K. injection K as <-. exists r. left. reflexivity.
      - intros a c0 r0 K. injection K as -> ->. reflexivity. }
    destruct ((cur st =? chCR)%N && _)%bool eqn:F3.
    + apply andb_true_iff in F3 as [Ec F3]. apply N.eqb_eq in Ec. destruct tw as [c2|]; [|discriminate]. apply N.eqb_eq in F3 as ->. destruct (F2 _ eq_refl) as [r [Er|K]]; [|discriminate K].
      cbn [inc_n_exn] in H. bi H x s2 Q2. bi H y s3 Q3. injection H as _ <-. apply inc_exn_moved in Q2, Q3.
      assert (C1 : cur s1 = cur st) by (rewrite F1; unfold cur; cbn; reflexivity). assert (C2 : cur s2 = chLF).
      { destruct Q2 as [Q2 _]. rewrite F1 in Q2. cbn [p_rest] in Q2. rewrite Er in Q2. apply (f_equal (@tl _)) in Q2; cbn [tl app] in Q2. unfold cur. rewrite <- Q2. reflexivity. }
      rewrite C1, Ec in Q2. rewrite C2 in Q3. exists [13; 10]%N. split; [|right; left; reflexivity].
      rewrite F1 in Q2. exact (moved_trans _ _ _ _ _ Q2 Q3).
    + injection H as _ <-. exists []. split; [rewrite F1; apply moved_refl; reflexivity|]. right; right. split; [reflexivity|]. unfold cur in *. split.
      * destruct (p_rest st); [exact I|exact E].
      * intros r Er. rewrite (F4 _ _ _ Er) in F3. rewrite Er in F3. discriminate F3.
Qed.
Lemma no_head_app P w r : no_head P (w ++ r) -> r <> [] -> no_head P (w ++ firstn 1 r).
Proof. destruct w as [|c w]; [|auto]. destruct r; [congruence|auto]. Qed.
Lemma string_says_read n d st r st' : st_multiline d = false -> parse_string n d st = (Ok r, st') ->
  exists ml w m, moved w st st' /\ string_says (st_basic d) ml w m /\ str_val r = m /\ match r with SStr t _ _ => ml = st_multiline t | _ => True end.
Proof.
  intros Hd H. pose proof (sat_parse_string n d _ _ _ H) as Hs. destruct r as [| | | | | |t v' o]; try contradiction. clear Hs.
  unfold parse_string in H. bix H. destruct (N.eqb_spec (cur st) (st_unit d)) as [Ec|]; cbn [negb] in H; [|discriminate].
  bi H x s1 Q1. apply inc_exn_moved in Q1. rewrite Ec in Q1. bix H. bi H od s2 Q2.
  assert (D : (od = None /\ moved [st_unit d] s1 s2) \/ (od = Some d /\ moved [] s1 s2) \/ (od = Some (st_toggle d) /\ moved [st_unit d; st_unit d] s1 s2)).
  { destruct (N.eqb_spec (cur s1) (st_unit d)) as [Ec1|].
    - bi Q2 b s3 Q3. pose proof (incM_moved _ _ _ _ Q3 Ec1 (unit_nonnul d)) as Q3'. clear Q3; rename Q3' into Q3. bix Q2. destruct b; cbn [negb orb] in Q2.
      2:{ injection Q2 as <- <-. auto. }
      destruct (N.eqb_spec (cur s3) (st_unit d)) as [Ec3|]; cbn [negb] in Q2; [|injection Q2 as <- <-; auto].
      bi Q2 y s4 Q4. injection Q2 as <- <-. apply inc_exn_moved in Q4. rewrite Ec3 in Q4. right; right. split; [reflexivity|].
      apply (moved_trans _ _ _ _ _ Q3 Q4).
    - injection Q2 as <- <-. right; left. split; [reflexivity|]. apply moved_nil. }
  clear Q2. destruct D as [[-> D]|D].
  - injection H as <- <- _ <-. exists false, ([st_unit d] ++ [st_unit d]), []. split; [eapply moved_trans; eassumption|]. split; [|split; [reflexivity|symmetry; exact Hd]]. exists [], []. rewrite piece_unit. split; [constructor|]. split; reflexivity.
  - assert (K : exists d', od = Some d' /\ moved (st_value d') st s2 /\ st_basic d' = st_basic d).
    { destruct D as [[-> D]|[-> D]].
      - exists d. split; [reflexivity|]. split; [|reflexivity]. rewrite st_value_repeat, Hd. exact (moved_trans _ _ _ _ _ Q1 D).
      - exists (st_toggle d). split; [reflexivity|]. split; [|destruct d; reflexivity]. rewrite st_value_repeat, toggle_unit, toggle_ml, Hd. apply (moved_trans _ _ _ _ _ Q1 D). }
    destruct K as (d' & -> & K & Kb). clear D. bix H. bi H y s3 Q3. pose proof (string_loop_type _ _ _ _ _ _ _ _ _ H) as ->.
    destruct (string_loop_says _ d' _ false _ _ _ (nobool _) H) as (b & m & B1 & B3 & B2). cbn [str_val app] in B3. subst v'.
    assert (Eu : st_unit d = st_unit d') by (destruct d, d'; try discriminate Kb; reflexivity).
    assert (F : exists w, moved w s2 s3 /\ first_newline (st_multiline d') w (b ++ [st_unit d])).
    { unfold first_newline. destruct (st_multiline d') eqn:Em.
      - apply skip_nl_says in Q3 as (w & W1 & W2). exists w. split; [exact W1|]. cbn [set_mark p_rest] in W2. destruct W2 as [W2|[W2|(-> & W2 & W3)]]; [auto|auto|]. right; right. split; [reflexivity|].
        destruct W1 as [W1 _]. cbn [app set_mark p_rest] in W1. rewrite W1 in W2, W3. destruct B1 as [B1 _]. rewrite B1, st_value_repeat, Em in W2, W3. cbn [repeat] in W2, W3. rewrite <- Eu in *. split.
        + destruct b; exact W2.
        + intros r0 E. destruct b as [|c [|c2 b]]; cbn [app] in *.
          * injection E as E1. revert E1. destruct d; discriminate.
          * injection E as _ E1 _. revert E1. destruct d; discriminate.
          * injection E as -> -> _. eapply W3. reflexivity.
      - injection Q3 as _ <-. exists []. split; [apply moved_refl; reflexivity|auto]. }
    destruct F as (w0 & W1 & W2). clear Q3. exists (st_multiline d'), (st_value d' ++ (w0 ++ b) ++ st_value d'), m. split.
    { eapply moved_trans; [exact K|]. rewrite <- app_assoc. eapply moved_trans; [exact W1|exact B1]. }
    split; [|split; reflexivity]. exists w0, b. rewrite piece_unit. rewrite Kb in B2. rewrite <- Eu in B2. split; [exact B2|]. split; [exact W2|]. rewrite Eu. unfold first_newline in W2. destruct d'; cbn [st_multiline st_value st_unit] in *; rewrite <- ?app_assoc; try rewrite W2; reflexivity.
Qed.

(** * Keys *)
Lemma rev_head_rstrip p w : match rev (rstrip_p p w) with c :: _ => p c = false | [] => True end.
Proof. unfold rstrip_p. rewrite rev_involutive. pose proof (drop_head p (rev w)) as D. destruct (drop_while p (rev w)); [exact I|exact D]. Qed.
Lemma bare_says w : Forall (fun c => is_bare_key_char c || is_spaces c = true)%bool w -> Base.strip w <> [] -> inb chSP (Base.strip w) = false -> name_says w (Base.strip w).
Proof.
  intros Hw Hn Hs. destruct (strip_split py_isspace w) as (a & b & E & Ha & Hb). fold (Base.strip w) in E.
  assert (Hh : match Base.strip w with [] => True | c :: _ => py_isspace c = false end).
  { unfold Base.strip, lstrip_p. pose proof (drop_head py_isspace w) as D. destruct (drop_while py_isspace w) as [|c r]; [exact I|].
    destruct (Control.rstrip_split py_isspace (c :: r)) as (z & Ez & _). destruct (rstrip_p py_isspace (c :: r)) as [|x y]; [exact I|]. injection Ez as -> _. exact D. }
  assert (Hl : match rev (Base.strip w) with [] => True | c :: _ => py_isspace c = false end) by (pose proof (rev_head_rstrip py_isspace (lstrip_p py_isspace w)) as X; unfold Base.strip; destruct (rev _); exact X).
  revert Hn Hs E Hh Hl. generalize (Base.strip w). intros k Hn Hs E Hh Hl. subst w. apply Forall_app in Hw as [Wa Hw]. apply Forall_app in Hw as [Wk Wb]. destruct k as [|c k]; [congruence|].
  assert (B : forall x, Forall (fun c => py_isspace c = true) x -> Forall (fun c => is_bare_key_char c || is_spaces c = true)%bool x -> blanks x).
  { intros x H1 H2. apply Forall_forall. intros c0 Hc. rewrite Forall_forall in H1, H2. specialize (H1 _ Hc). specialize (H2 _ Hc). revert H1 H2. cbv beta. unfold py_isspace. chp. }
  apply nm_bare; [apply B; assumption| | | |apply B; assumption].
  - inversion Wk as [|? ? W1 _]; subst. clear -W1 Hh. cbv beta iota in W1, Hh. revert Hh. unfold py_isspace. chp.
  - inversion Wk as [|? ? _ W1]; subst. clear -W1 Hs. apply Forall_forall. intros x Hx. rewrite Forall_forall in W1. specialize (W1 _ Hx). cbv beta in W1.
    assert (x <> chSP). { intros ->. assert (K : inb chSP (c :: k) = true) by (apply inb_In; right; exact Hx). rewrite K in Hs. discriminate. }
    revert W1 H. chp.
  - clear -Hl. cbn [rev] in Hl. destruct (rev k) as [|x y]; [exact I|]. cbn [app] in Hl. cbn. revert Hl. unfold py_isspace. chp.
Qed.
Lemma strings_text basic ml w m : string_says basic ml w m -> string_text basic ml w.
Proof.
  assert (P : forall b l q k w m, pieces_say b l q k w m -> pieces b l q k w).
  { induction 1.
    - constructor.
    - apply (ps_piece b l q k [c] w0); [apply pc_char; assumption|assumption].
    - apply ps_piece; [|assumption]. apply pc_escape; [assumption|]. match goal with X : escape_says _ _ |- _ => destruct X as [c x Hin|x y Hl _|x y Hl _] end; [|apply es_u; assumption|apply es_U; assumption].
      apply es_short. clear -Hin. cbn [In short_escapes] in Hin. repeat (destruct Hin as [Hin|Hin]; [injection Hin as <- _; cbn [In]; tauto|]). destruct Hin.
    - apply (ps_piece b l q k (92%N :: u) w0); [apply pc_continued; assumption|assumption].
    - apply ps_quote; assumption. }
  intros (n & b & H & F & ->). apply P in H. exists (n ++ b). assert (Hq : (quote_of basic = 34 \/ quote_of basic = 39)%N) by (destruct basic; [left|right]; reflexivity). split.
  - unfold first_newline in F. destruct ml; [|subst n; exact H].
    assert (C : forall c r, (c = 10 \/ c = 13)%N -> pieces basic true (quote_of basic) 0 r -> pieces basic true (quote_of basic) 0 (c :: r)).
    { intros c r Hc Hr. apply (ps_piece basic true (quote_of basic) 0 [c] r); [|exact Hr]. apply pc_char; [lia|lia|]. intros _. split; [reflexivity|exact Hc]. }
    destruct F as [-> |[-> |[-> _]]]; cbn [app]; auto.
  - destruct ml; rewrite <- ?app_assoc; [reflexivity|]. cbn [first_newline] in F. subst n. reflexivity.
Qed.
Definition names (k : key) : list str := map k_key (key_parts k).
Lemma names_sep s k : names (key_set_sep s k) = names k. Proof. destruct k; reflexivity. Qed.
Lemma key_says_read n : forall st k st', parse_key n st = (Ok k, st') -> exists w, moved w st st' /\ key_says w (names k) /\ names k <> [].
Proof.
  induction n as [|n IH]; intros st k st' H; cbn [parse_key] in H; [discriminate|]. bix H. bix H. bix H.
  destruct (moved_blanks (set_mark st)) as (a & Ha & Ma). bi H k1 s1 Q1.
  assert (K : exists w, moved w st s1 /\ name_says w (k_key k1)).
  { destruct (is_quote (cur _)) eqn:Eq.
    - bix Q1. cbv zeta in Q1. bi Q1 v s2 Q2. apply string_says_read in Q2 as (ml & w & m & W1 & W2 & Wv & W3); [|destruct (_ =? _)%N; reflexivity].
      destruct v as [| | | | | |t v o]; try discriminate. destruct (st_multiline t) eqn:Et; [discriminate|]. subst ml. bix Q1. bix Q1. bix Q1.
      injection Q1 as <- <-. cbn [str_val] in Wv. subst v. destruct (moved_blanks (set_mark s2)) as (z & Hz & Mz).
      exists (a ++ w ++ z). split; [eapply moved_trans; [exact Ma|]; eapply moved_trans; [exact W1|exact Mz]|]. cbn [k_key]. eapply nm_quoted; eassumption.
    - bix Q1. bix Q1. rewrite extract_twice in Q1. cbv zeta in Q1. set (o := _ ++ _) in Q1. destruct (Base.strip o) as [|c0 r0] eqn:Es; [discriminate|].
      destruct (inb chSP (c0 :: r0)) eqn:Ei; [discriminate|]. injection Q1 as <- <-. cbn [k_key]. rewrite <- Es in *. exists o. split.
      + apply (moved_trans _ _ st (adv_while is_spaces (set_mark st))); [apply (adv_moved is_spaces (set_mark st))|apply adv_moved].
      + apply bare_says; [|rewrite Es; discriminate|exact Ei]. apply Forall_app. split; apply all_take; intros c Hc; revert Hc; [intros ->; rewrite orb_true_r; reflexivity|auto]. }
  clear Q1. destruct K as (w & W1 & W2). bix H. destruct (N.eqb_spec (cur s1) chDOT) as [Ed|].
  - bi H b s2 Q2. pose proof (incM_moved _ _ _ _ Q2 Ed ltac:(discriminate)) as M2. bi H k2 s3 Q3. injection H as <- <-.
    apply IH in Q3 as (r & R1 & R2 & _). exists (w ++ [46]%N ++ r). split; [eapply moved_trans; [exact W1|]; eapply moved_trans; [exact M2|exact R1]|]. split; [|discriminate].
    unfold names, key_concat. cbn [key_parts dotted_of app map]. apply ks_dot; assumption.
  - injection H as <- <-. exists w. split; [exact W1|]. split; [apply ks_one, W2|discriminate].
Qed.
Lemma key_fine_read n : forall st k st', parse_key n st = (Ok k, st') -> match k with KSingle _ => True | KDotted ks _ _ => 2 <= List.length ks end.
Proof.
  destruct n as [|n]; intros st k st' H; cbn [parse_key] in H; [discriminate|]. bix H. bix H. bix H. bi H k1 s1 Q1. bix H. destruct (cur s1 =? chDOT)%N; [|injection H as <- _; exact I].
  bi H b s2 Q2. bi H k2 s3 Q3. injection H as <- _. apply key_says_read in Q3 as (_ & _ & _ & Hn). unfold names in Hn. unfold key_concat, dotted_of. cbn [key_parts]. rewrite app_length. cbn [List.length].
  destruct (key_parts k2); [exfalso; apply Hn; reflexivity|cbn; lia].
Qed.

(** * Values *)
Definition valued (i : item) : Prop := match i with IVal _ _ | IArray _ _ _ | IInline _ _ _ => True | _ => False end.
Lemma sat_arrayv n : forall s e p, sat valued (array_loop s n e p).
Proof.
  induction n as [|n IH]; intros; cbn [array_loop]; sat; try (apply sat_ret; exact I).
  all: intros st ax st' E; destruct (parse_value s n st) as [[v|e0] st1].
  all: try (destruct (_ && _)%bool; [discriminate|]; eapply IH; eauto).
  all: destruct e0 as [k0 l0 c0| | | | | | | | | | | | | |]; try discriminate; destruct k0; try discriminate;
       destruct (_ && _)%bool; [discriminate|]; revert E; match goal with |- ?m _ = _ -> _ =>
         assert (G : sat valued m) by (sat; apply sat_ret; exact I); apply G end.
Qed.
Lemma sat_inlinev n : forall s e p, sat valued (inline_loop s n e p).
Proof. induction n as [|n IH]; intros; cbn [inline_loop]; sat; apply sat_ret; exact I. Qed.
Lemma sat_valued n s : sat valued (parse_value s n).
Proof.
  destruct n as [|n]; cbn [parse_value]; [apply sat_raise_exn|]. pose proof (sat_arrayv n s). pose proof (sat_inlinev n s).
  assert (sat valued parse_digit_value) by (unfold parse_digit_value; sat; apply sat_ret; exact I).
  assert (sat valued parse_signed_value) by (unfold parse_signed_value; sat; apply sat_ret; exact I).
  assert (forall b, sat valued (parse_bool b)) by (intros b; unfold parse_bool; sat; apply sat_ret; exact I).
  sat; apply sat_ret; exact I.
Qed.
