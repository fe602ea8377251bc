(** CompStr: every TOML string, with its escapes, is read as the string it stands
    for (C38). *)
From Verif Require Import Base Source Utils Items Container Arrays Parser Api Lemmas Escape Strings StringRT StringApi Numbers Unicode Reader Grammar Meaning Denote.
From Coq Require Import ZifyBool ZifyNat ZifyN.
Open Scope nat_scope.

Lemma space_ws c : space_c c <-> is_ws c = true.
Proof. unfold space_c, blank_c, newline_c, is_ws, is_spaces, is_nl, chSP, chTAB, chLF, chCR. lia. Qed.
Lemma blank_sp c : blank_c c <-> is_spaces c = true.
Proof. unfold blank_c, is_spaces, chSP, chTAB. lia. Qed.

(** * One escape *)
Lemma short_value c v : In (c, v) short_escapes -> escaped_value c = Some v.
Proof. unfold short_escapes. cbn [In]. intros H. repeat (destruct H as [H|H]; [injection H as <- <-; reflexivity|]). destruct H. Qed.
Lemma hs_ok hs : scalar_value (positional 16 hs) -> dig 16 hs -> List.length hs = 4 \/ List.length hs = 8 -> uni_ok hs (positional 16 hs).
Proof.
  intros Hs Hd Hl. unfold scalar_value in Hs. apply uni_val_ok. destruct Hl as [Hl|Hl].
  - destruct (uni_val_short hs Hd Hl) as [[B _]|[_ E]]; [exfalso; unfold surrogate in B; lia|exact E].
  - destruct (uni_val_long hs Hd Hl) as [[B _]|[_ E]]; [exfalso; lia|exact E].
Qed.
Lemma loop_escape d n v pre mk u x r : st_basic d = true -> escape_means u x -> r <> [] ->
  string_loop (S (S n)) d v false (mkSt pre (u ++ r) mk) = string_loop n d (v ++ [x]) false (mkSt (pre ++ u) r mk).
Proof.
  intros Hb He Hr. destruct He as [c x Hc|w Hl Hd Hs|w Hl Hd Hs]; cbn [app]; rewrite loop_bsl by (auto; discriminate).
  - rewrite (loop_esc _ _ _ _ _ c x) by (auto using short_value). rewrite <- app_assoc. reflexivity.
  - rewrite (loop_uni d n v _ mk false w (positional 16 w) r) by (auto using hs_ok). rewrite <- app_assoc. reflexivity.
  - rewrite (loop_uni d n v _ mk true w (positional 16 w) r) by (auto using hs_ok). rewrite <- app_assoc. reflexivity.
Qed.
Lemma escape_len u x : escape_means u x -> 2 <= List.length u /\ hd 0%N u = 92%N.
Proof. destruct 1; cbn [List.length hd]; lia. Qed.
(** * A line continued *)
Lemma loop_continued d n v pre mk u r : st_basic d = true -> st_multiline d = true -> Forall space_c u -> In 10%N u ->
  match r with [] => False | c :: _ => is_ws c = false end ->
  string_loop (S (S n)) d v false (mkSt pre (92%N :: u ++ r) mk) = string_loop n d v false (mkSt (pre ++ 92%N :: u) r mk).
Proof.
  intros Hb Hm Hu Hin Hr. assert (Ne : u ++ r <> []) by (destruct u; [destruct Hin|discriminate]).
  rewrite loop_bsl by assumption. cbn [string_loop]. unfold bind at 1, current at 1, cur. cbn [p_rest negb andb].
  rewrite Hb. cbn [andb]. rewrite Hm. unfold bind at 1, parse_escaped_char. unfold bind at 1, current at 1, cur. cbn [p_rest].
  assert (Fw : Forall (fun c => is_ws c = true) u) by (eapply Forall_impl; [|exact Hu]; intros c; apply space_ws).
  assert (Ew : is_ws (match u ++ r with [] => chNUL | c :: _ => c end) = true).
  { destruct u as [|a u]; [destruct Hin|]. cbn [app]. inversion Fw; assumption. }
  rewrite Ew. cbn [andb]. unfold bind at 1, skip_ws_exn, adv_while. cbn [p_pre p_rest p_mark].
  destruct (take_while_app is_ws u r Fw) as [E1' E2']. { destruct r; [exact I|exact Hr]. }
  rewrite E1', E2'. unfold at_end. cbn [p_rest]. destruct r as [|c r]; [destruct Hr|]. cbn [andb].
  apply inb_In in Hin. unfold chLF. rewrite Hin. unfold ret. rewrite app_nil_r, <- app_assoc. reflexivity.
Qed.

(** * The body *)
Section Body.
Context (d : strtype).
Notation basic := (st_basic d). Notation ml := (st_multiline d). Notation q := (st_unit d).
Notation PM := (pieces_mean basic ml q).
Lemma pieces_nil (bs l : bool) (u : char) k m : pieces_mean bs l u k [] m -> m = [].
Proof.
  intros H. inversion H; subst; [reflexivity|]. exfalso.
  match goal with X : _ ++ _ = [] |- _ => apply app_eq_nil in X as [-> ->] end.
  match goal with X : escape_means [] _ |- _ => apply escape_len in X; cbn in X; lia end.
Qed.
Lemma unit_quote : q = quote_of basic.
Proof. destruct d; reflexivity. Qed.
Lemma basic_q : basic = true -> q = 34%N.
Proof. intros H. rewrite unit_quote, H. reflexivity. Qed.
Lemma pieces_any k k' b m : PM k b m -> no_quote q b -> PM k' b m.
Proof.
  intros H N. inversion H; subst; cbn [no_quote] in *; try (econstructor; eauto; fail). congruence.
Qed.
Lemma split_quotes k b m : PM k b m -> exists j b' m', b = repeat q j ++ b' /\ m = repeat q j ++ m' /\ no_quote q b' /\ PM 0 b' m'
  /\ (j = 0 \/ ml = true /\ j + k <= 2).
Proof.
  intros H. induction H as [k|k c w m Hc Hb Hctl H IH|k u v w m Hb He H IH|k u w m Hb Hm Hu Hin Hn H IH|k w m Hm Hk H IH].
  - exists 0, [], []. repeat split; auto. constructor.
  - exists 0, (c :: w), (c :: m). repeat split; auto. constructor; assumption.
  - exists 0, (u ++ w), (v :: m). repeat split; auto.
    + destruct (escape_len u v He) as [L1 L2]. destruct u as [|a u]; [cbn in L1; lia|]. cbn [app no_quote hd] in *. rewrite (basic_q Hb). lia.
    + econstructor; eassumption.
  - exists 0, (92%N :: u ++ w), m. repeat split; auto.
    + cbn [no_quote]. rewrite (basic_q Hb). discriminate.
    + apply sm_continued; assumption.
  - destruct IH as (j & b' & m' & -> & -> & N & P & J). exists (S j), b', m'. repeat split; auto.
    right. split; [exact Hm|]. destruct J as [->|[_ J]]; lia.
Qed.
Definition close : str := if ml then [q; q; q] else [q].
Lemma q_not_ws : is_ws q = false.
Proof. destruct d; reflexivity. Qed.
Lemma close_ne : forall b tail, b ++ close ++ tail <> [].
Proof. intros b tail. unfold close. destruct b, ml; discriminate. Qed.
Lemma char_good c : (control_c c -> ml = true /\ newline_c c) -> bad_string_char ml c = false.
Proof.
  intros H. destruct (bad_string_char ml c) eqn:E; [|reflexivity]. exfalso.
  unfold bad_string_char, chTAB, chLF, chCR in E. unfold control_c, newline_c in H.
  assert (X : c = 127%N \/ (c <= 31 /\ c <> 9)%N) by lia. destruct (H X) as [Hm Hn]. rewrite Hm in E. lia.
Qed.
Lemma body_run : forall N b, List.length b <= N -> forall m, PM 0 b m -> forall fuel v pre mk tail,
  List.length b < fuel -> mk <= List.length pre -> no_quote q tail ->
  string_loop fuel d v false (mkSt pre (b ++ close ++ tail) mk)
  = (Ok (SStr d (v ++ m) (skipn mk pre ++ b)), mkSt (pre ++ b ++ close) tail mk).
Proof.
  induction N as [|N IH]; intros b Hlen m H fuel v pre mk tail Hf Hmk Ht; (destruct fuel as [|fuel]; [lia|]).
  { destruct b; [|cbn in Hlen; lia]. inversion H; subst;
      try match goal with X : _ ++ _ = [] |- _ => apply app_eq_nil in X as [-> ->] end;
      try match goal with X : escape_means [] _ |- _ => apply escape_len in X; cbn in X; lia end.
    rewrite !app_nil_r. cbn [app]. unfold close. destruct ml eqn:Em.
    + change ([st_unit d; st_unit d; st_unit d] ++ tail) with (repeat (st_unit d) 3 ++ tail). rewrite loop_run by assumption. reflexivity.
    + cbn [app]. rewrite (loop_close_single d fuel v pre mk tail (skipn mk pre)) by auto. reflexivity. }
  destruct (split_quotes _ _ _ H) as (j & b' & m' & -> & -> & Nq & P & J).
  destruct j as [|j].
  - cbn [repeat app] in *. clear J. inversion P as [k|k c w m0 Hc Hb Hctl P'|k u x w m0 Hb He P'|k u w m0 Hb Hm Hu Hin Hn P'|k w m0 Hm Hk P']; subst.
    + cbn [app]. rewrite !app_nil_r. unfold close. destruct ml eqn:Em.
      * change ([st_unit d; st_unit d; st_unit d] ++ tail) with (repeat (st_unit d) 3 ++ tail). rewrite loop_run by assumption. reflexivity.
      * cbn [app]. rewrite (loop_close_single d fuel v pre mk tail (skipn mk pre)) by auto. reflexivity.
    + cbn [app List.length] in *. rewrite loop_plain; [|apply close_ne|apply char_good, Hctl|exact Hc|exact Hb].
      rewrite IH with (m := m0) by (auto; rewrite ?app_length; cbn [List.length]; lia).
      rewrite mk_skip by exact Hmk. rewrite <- !app_assoc. reflexivity.
    + destruct (escape_len u x He) as [L1 _]. rewrite app_length in *. destruct fuel as [|fuel]; [lia|].
      rewrite <- (app_assoc u w). rewrite (loop_escape d fuel v pre mk u x) by (auto using close_ne).
      rewrite IH with (m := m0) by (auto; rewrite ?app_length; lia).
      rewrite mk_skip by exact Hmk. rewrite <- !app_assoc. reflexivity.
    + cbn [List.length] in *. rewrite app_length in *. assert (1 <= List.length u) by (destruct u; [destruct Hin|cbn; lia]).
      destruct fuel as [|fuel]; [lia|]. cbn [app]. rewrite <- (app_assoc u w).
      rewrite loop_continued; auto.
      * rewrite IH with (m := m') by (auto; rewrite ?app_length; cbn [List.length]; lia).
        rewrite mk_skip by exact Hmk. rewrite <- !app_assoc. cbn [app]. rewrite <- ?app_assoc. reflexivity.
      * destruct w as [|a w]; cbn [app].
        -- unfold close. pose proof q_not_ws. destruct ml; exact H1.
        -- cbn [no_head] in Hn. destruct (is_ws a) eqn:E; [|reflexivity]. apply space_ws in E. contradiction.
    + cbn [no_quote] in Nq. congruence.
  - destruct J as [J|[Hm J]]; [discriminate|]. assert (Ec : close = [q; q; q]) by (unfold close; rewrite Hm; reflexivity).
    destruct b' as [|a b'].
    + inversion P; subst; try match goal with X : _ ++ _ = [] |- _ => apply app_eq_nil in X as [-> ->] end;
        try match goal with X : escape_means [] _ |- _ => apply escape_len in X; cbn in X; lia end.
      rewrite !app_nil_r. rewrite Ec.
      replace (repeat (st_unit d) (S j) ++ [st_unit d; st_unit d; st_unit d] ++ tail) with (repeat (st_unit d) (S (j + 3)) ++ tail).
      2: { rewrite (app_assoc _ _ tail). f_equal. change [st_unit d; st_unit d; st_unit d] with (repeat (st_unit d) 3). rewrite <- repeat_app. reflexivity. }
      rewrite loop_run by assumption. cbv zeta.
      replace (Nat.ltb (S (j + 3)) 3) with false by (symmetry; apply Nat.ltb_ge; lia).
      replace (Nat.eqb (S (j + 3)) 3) with false by (symmetry; apply Nat.eqb_neq; lia).
      replace (Nat.leb 6 (S (j + 3))) with false by (symmetry; apply Nat.leb_gt; lia).
      replace (S (j + 3) - 3) with (S j) by lia.
      assert (X : repeat (st_unit d) (S (j + 3)) = repeat (st_unit d) (S j) ++ [st_unit d; st_unit d; st_unit d]).
      { change [st_unit d; st_unit d; st_unit d] with (repeat (st_unit d) 3). rewrite <- repeat_app. reflexivity. }
      rewrite X. reflexivity.
    + rewrite app_length in Hlen, Hf. rewrite repeat_length in Hlen, Hf.
      rewrite <- (app_assoc (repeat q (S j))). rewrite loop_run; [|exact Hm|exact Nq].
      cbv zeta. replace (Nat.ltb (S j) 3) with true by (symmetry; apply Nat.ltb_lt; lia).
      rewrite IH with (m := m') by (auto; rewrite ?app_length, ?repeat_length; lia).
      rewrite mk_skip by exact Hmk. rewrite <- !app_assoc. reflexivity.
Qed.
End Body.

(** * Whole strings *)
Lemma open_newline t fuel pre n r mk : st_multiline t = true -> n = [10%N] \/ n = [13; 10]%N -> r <> [] ->
  parse_string fuel (st_toggle t) (mkSt pre ([st_unit t; st_unit t; st_unit t] ++ n ++ r) mk)
  = string_loop fuel t [] false (mkSt (pre ++ [st_unit t; st_unit t; st_unit t] ++ n) r (List.length (pre ++ [st_unit t; st_unit t; st_unit t]))).
Proof.
  intros Hm Hn Hr. assert (Hu : st_unit (st_toggle t) = st_unit t) by (destruct t; reflexivity).
  assert (Htt : st_toggle (st_toggle t) = t) by (destruct t; reflexivity).
  assert (Hne : n ++ r <> []) by (destruct Hn as [-> | ->]; discriminate).
  unfold parse_string. unfold bind at 1, current at 1, cur; cbn [p_rest app]. rewrite Hu, N.eqb_refl. cbn [negb].
  unfold bind at 1. rewrite inc_exn_ok by discriminate.
  unfold bind at 1, current at 1, cur; cbn [p_rest]. rewrite N.eqb_refl.
  unfold bind at 1 2. rewrite incM_st. unfold bind at 1, current at 1, cur; cbn [p_rest negb orb]. rewrite N.eqb_refl. cbn [negb].
  unfold bind at 1. rewrite inc_exn_ok by exact Hne. unfold ret at 1. rewrite Htt.
  rewrite <- !app_assoc. cbn [app].
  unfold bind at 1, mark, set_mark. cbn [p_pre p_rest]. rewrite Hm.
  unfold bind at 1. unfold skip_first_newline. unfold bind at 1, current at 1, cur; cbn [p_rest].
  destruct Hn as [-> | ->]; cbn [app].
  - change (10 =? chLF)%N with true. cbv iota. rewrite inc_exn_ok by exact Hr. rewrite <- app_assoc. reflexivity.
  - change (13 =? chLF)%N with false. cbv iota. unfold bind at 1, restoring, bind at 1. rewrite incM_st. unfold bind, current, cur, ret. cbn [p_pre p_rest p_mark].
    change ((13 =? chCR)%N && (10 =? chLF)%N) with true. cbv iota. unfold inc_n_exn.
    unfold bind. rewrite inc_exn_ok by discriminate. rewrite inc_exn_ok by exact Hr. unfold ret. rewrite <- !app_assoc. reflexivity.
Qed.
Definition styp (basic ml : bool) : strtype := if basic then (if ml then MLB else SLB) else (if ml then MLL else SLL).
Lemma string_run basic ml w m : string_means basic ml w m -> forall fuel pre mk tail, List.length w <= fuel -> no_quote (quote_of basic) tail ->
  exists o mk', parse_string fuel (styp basic false) (mkSt pre (w ++ tail) mk) = (Ok (SStr (styp basic ml) m o), mkSt (pre ++ w) tail mk').
Proof.
  intros (n & b & P & F & E) fuel pre mk tail Hf Ht. set (t := styp basic ml) in *.
  assert (Eb : st_basic t = basic) by (destruct basic, ml; reflexivity). assert (Em : st_multiline t = ml) by (destruct basic, ml; reflexivity).
  assert (Eu : st_unit t = quote_of basic) by (destruct basic, ml; reflexivity).
  assert (Q1 : (chLF =? st_unit t)%N = false) by (destruct basic, ml; reflexivity). assert (Q2 : (chCR =? st_unit t)%N = false) by (destruct basic, ml; reflexivity).
  cbv zeta in F, E, P. rewrite <- Eu in F, E, P, Ht.
  assert (P' : pieces_mean (st_basic t) (st_multiline t) (st_unit t) 0 b m) by (rewrite Eb, Em; exact P).
  destruct ml.
  - replace (styp basic false) with (st_toggle t) by (subst t; destruct basic; reflexivity).
    assert (X : exists k, k <= List.length (pre ++ [st_unit t; st_unit t; st_unit t] ++ n) /\
      parse_string fuel (st_toggle t) (mkSt pre (w ++ tail) mk) = string_loop fuel t [] false (mkSt (pre ++ [st_unit t; st_unit t; st_unit t] ++ n) (b ++ [st_unit t; st_unit t; st_unit t] ++ tail) k)).
    { exists (List.length (pre ++ [st_unit t; st_unit t; st_unit t])). split; [rewrite !app_length; lia|]. subst w. rewrite <- !app_assoc.
      assert (Bne : forall r, b ++ st_unit t :: r <> []) by (intros r; destruct b; discriminate).
      destruct F as [->|[->|(-> & F1 & F2)]].
      - apply (open_newline t fuel pre [10%N]); auto; apply Bne.
      - apply (open_newline t fuel pre [13; 10]%N); auto; apply Bne.
      - cbn [app]. pose proof (open_multi t fuel pre (b ++ [st_unit t; st_unit t; st_unit t] ++ tail) mk Em) as O. cbn [app] in O. apply O.
        + apply Bne.
        + destruct b as [|x b]; cbn [app hd no_head] in *; [|exact F1]. intros X. rewrite X in Q1. discriminate.
        + destruct b as [|x [|y b]]; [cbn [app startswith]; rewrite Q2; reflexivity| |].
          * cbn [app startswith]. rewrite Q1. apply andb_false_r.
          * cbn [app startswith] in *. destruct (chCR =? x)%N eqn:E1; [|reflexivity]. destruct (chLF =? y)%N eqn:E2; [|reflexivity].
            exfalso. apply N.eqb_eq in E1, E2. subst x y. eapply F2. reflexivity. }
    destruct X as (k & Hk & ->). pose proof (body_run t (List.length b) b (le_n _) m P' fuel [] (pre ++ [st_unit t; st_unit t; st_unit t] ++ n) k tail) as B.
    unfold close in B. rewrite Em in B. exists (skipn k (pre ++ [st_unit t; st_unit t; st_unit t] ++ n) ++ b), k. rewrite B; auto.
    + subst w. rewrite <- !app_assoc. reflexivity.
    + subst w. rewrite !app_length in Hf. cbn [List.length] in Hf. lia.
  - cbn [first_newline] in F. subst n w. change (styp basic false) with t. destruct b as [|c b].
    + apply pieces_nil in P. subst m. exists [], mk. cbn [app]. rewrite (open_empty t fuel pre tail mk Em Ht). reflexivity.
    + assert (Hc : c <> st_unit t).
      { destruct (split_quotes t 0 _ _ P') as (j & b' & m' & E1 & _ & N & _ & J). rewrite Em in J. destruct J as [->|[J _]]; [|discriminate]. cbn [repeat app] in E1. subst b'. exact N. }
      cbn [app]. rewrite (open_single t fuel pre c ((b ++ [st_unit t]) ++ tail) mk Em Hc).
      pose proof (body_run t (List.length (c :: b)) (c :: b) (le_n _) m P' fuel [] (pre ++ [st_unit t]) (List.length (pre ++ [st_unit t])) tail) as B.
      unfold close in B. rewrite Em in B. rewrite <- app_assoc. change (c :: b ++ [st_unit t] ++ tail) with ((c :: b) ++ [st_unit t] ++ tail).
      exists (skipn (List.length (pre ++ [st_unit t])) (pre ++ [st_unit t]) ++ (c :: b)), (List.length (pre ++ [st_unit t])). rewrite B; auto.
      * rewrite <- app_assoc. reflexivity.
      * cbn [app List.length] in Hf |- *. rewrite app_length in Hf. cbn in Hf. lia.
Qed.
