(** StringRT: texts produced from values read back to the same value (C05-C07). *)
From Verif Require Import Base Source Utils Items Container Arrays Parser Lemmas Escape Strings.
From Coq Require Import ZifyBool ZifyNat ZifyN Permutation.
Open Scope nat_scope.

Definition no_quote (u : char) (tail : str) : Prop := match tail with [] => True | c :: _ => c <> u end.

Lemma mk_skip (pre w : str) mk : mk <= List.length pre -> skipn mk (pre ++ w) = skipn mk pre ++ w.
Proof. intros H. rewrite skipn_app. replace (mk - List.length pre) with 0 by lia. reflexivity. Qed.

(** ** Single-line basic *)
Notation E1 s := (esc_ref (escaped_sequences SLB) s 0).
Lemma esc1_nonempty c : (if esc_char c then esc_seq [c] else [c]) <> [].
Proof.
  destruct (esc_char c) eqn:E; [|discriminate]. apply esc_char_reads in E. unfold reads_back in E.
  destruct (esc_seq [c]); discriminate.
Qed.
Lemma esc_seq_len c : reads_back c = true -> 2 <= List.length (esc_seq [c]).
Proof. unfold reads_back. destruct (esc_seq [c]) as [|? [|? ?]]; try discriminate. simpl. lia. Qed.

Lemma slb_body s : forall fuel v pre mk tail, List.length (E1 s) < fuel -> mk <= List.length pre ->
  string_loop fuel SLB v false (mkSt pre (E1 s ++ chDQ :: tail) mk)
  = (Ok (SStr SLB (v ++ s) (skipn mk pre ++ E1 s)), mkSt (pre ++ E1 s ++ [chDQ]) tail mk).
Proof.
  induction s as [|c s IH]; intros fuel v pre mk tail Hf Hmk.
  - cbn [esc_ref app]. destruct fuel; [simpl in Hf; lia|].
    change (chDQ) with (st_unit SLB). erewrite loop_close_single by reflexivity.
    rewrite !app_nil_r. reflexivity.
  - rewrite esc_ref_slb in *. rewrite app_length in Hf. rewrite <- app_assoc.
    assert (Hne : E1 s ++ chDQ :: tail <> []) by (destruct (E1 s); discriminate).
    destruct (esc_char c) eqn:Ec; rewrite ?Ec in Hf.
    + pose proof (esc_char_reads c Ec) as Hrb. pose proof (esc_seq_len c Hrb) as Hl.
      destruct fuel as [|[|fuel]]; [lia|lia|].
      rewrite loop_escaped by auto.
      rewrite IH by (rewrite ?app_length; lia).
      rewrite mk_skip by exact Hmk. rewrite <- !app_assoc. reflexivity.
    + destruct fuel as [|fuel]; [simpl in Hf; lia|]. cbn [app].
      unfold esc_char, is_control, chBSL, chDQ in Ec.
      rewrite loop_plain; [|exact Hne| | |].
      * rewrite IH by (rewrite ?app_length; simpl in *; lia).
        rewrite mk_skip by exact Hmk. rewrite <- !app_assoc. reflexivity.
      * unfold bad_string_char. cbn [st_multiline andb negb]. lia.
      * cbn. unfold chDQ. lia.
      * unfold chBSL. lia.
Qed.

(** ** Multi-line strings, both kinds *)
Section ML.
Variables (d : strtype) (E : str -> str) (ok : str -> Prop).
Let u := st_unit d.
Hypothesis Hm : st_multiline d = true.
Hypothesis ok_tail : forall c s, ok (c :: s) -> ok s.
Hypothesis E_nil : E [] = [].
Hypothesis E_other : forall c s, ok (c :: s) -> c <> u ->
  exists w j, E (c :: s) = w ++ E s /\ no_quote u w /\ w <> [] /\ 1 <= j <= List.length w /\
    forall n v pre mk r, r <> [] ->
      string_loop (j + n) d v false (mkSt pre (w ++ r) mk) = string_loop n d (v ++ [c]) false (mkSt (pre ++ w) r mk).
Hypothesis E_quote : forall s, ok (u :: s) -> startswith [u; u; u] (u :: s) = false -> E (u :: s) = u :: E s.
Hypothesis E_q3 : forall s, ok (u :: u :: u :: s) ->
  exists w j, E (u :: u :: u :: s) = w ++ E s /\ 1 <= j <= List.length w /\
    forall n v pre mk r, r <> [] ->
      string_loop (j + n) d v false (mkSt pre (w ++ r) mk) = string_loop n d (v ++ [u; u; u]) false (mkSt (pre ++ w) r mk).

Lemma E_no_quote s : ok s -> no_quote u s -> no_quote u (E s).
Proof.
  destruct s as [|c s]; intros Hok Hq; [rewrite E_nil; exact I|].
  destruct (E_other c s Hok Hq) as (w & j & -> & Hw & Hne & _).
  destruct w; [congruence|]. exact Hw.
Qed.

Lemma ml_body : forall m s, List.length s <= m -> ok s -> forall fuel v pre mk tail,
  List.length (E s) < fuel -> mk <= List.length pre -> no_quote u tail ->
  string_loop fuel d v false (mkSt pre (E s ++ [u; u; u] ++ tail) mk)
  = (Ok (SStr d (v ++ s) (skipn mk pre ++ E s)), mkSt (pre ++ E s ++ [u; u; u]) tail mk).
Proof.
  induction m as [|m IH]; intros s Hlen Hok fuel v pre mk tail Hf Hmk Ht.
  { destruct s; [|simpl in Hlen; lia]. destruct fuel; [lia|].
    rewrite E_nil. cbn [app]. change (u :: u :: u :: tail) with (repeat (st_unit d) 3 ++ tail).
    rewrite loop_run by auto. cbn. rewrite !app_nil_r. reflexivity. }
  destruct s as [|c s].
  { destruct fuel; [lia|].
    rewrite E_nil. cbn [app]. change (u :: u :: u :: tail) with (repeat (st_unit d) 3 ++ tail).
    rewrite loop_run by auto. cbn. rewrite !app_nil_r. reflexivity. }
  cbn [List.length] in Hlen.
  assert (Hne : forall x, E x ++ [u; u; u] ++ tail <> []) by (intros x; destruct (E x); discriminate).
  destruct (N.eq_dec c u) as [->|Hcu].
  - destruct s as [|c2 s].
    { (* one quote at the end *)
      rewrite E_quote in * by (auto; simpl; rewrite N.eqb_refl; reflexivity). rewrite E_nil in *.
      destruct fuel; [lia|].
      change (([u] ++ [u; u; u] ++ tail)) with (repeat (st_unit d) 4 ++ tail).
      rewrite loop_run by auto. cbn. reflexivity. }
    destruct (N.eq_dec c2 u) as [->|Hc2].
    + destruct s as [|c3 s].
      { rewrite E_quote in * by (auto; simpl; rewrite N.eqb_refl; reflexivity).
        rewrite E_quote in * by (eauto; simpl; rewrite N.eqb_refl; reflexivity). rewrite E_nil in *.
        destruct fuel; [lia|].
        change (([u; u] ++ [u; u; u] ++ tail)) with (repeat (st_unit d) 5 ++ tail).
        rewrite loop_run by auto. cbn. reflexivity. }
      destruct (N.eq_dec c3 u) as [->|Hc3].
      * (* three quotes *)
        destruct (E_q3 s Hok) as (w & j & Ew & Hj & Hstep). rewrite Ew in *. rewrite app_length in Hf.
        rewrite <- app_assoc. replace fuel with (j + (fuel - j)) by lia.
        rewrite Hstep by auto. cbn [List.length] in Hlen.
        rewrite IH by (eauto; rewrite ?app_length; lia).
        rewrite mk_skip by exact Hmk. rewrite <- !app_assoc. reflexivity.
      * (* two quotes, then something else *)
        assert (H3 : E (c3 :: s) <> []).
        { destruct (E_other c3 s) as (w & j & -> & _ & Hw & _); eauto. destruct w; [congruence|discriminate]. }
        rewrite (E_quote (u :: c3 :: s)) in * by (auto; simpl; rewrite !N.eqb_refl; apply N.eqb_neq in Hc3; rewrite N.eqb_sym, Hc3; reflexivity).
        rewrite (E_quote (c3 :: s)) in * by (eauto; simpl; apply N.eqb_neq in Hc3; rewrite N.eqb_refl, N.eqb_sym, Hc3; reflexivity).
        destruct fuel; [lia|].
        pose proof (E_no_quote (c3 :: s) (ok_tail _ _ (ok_tail _ _ Hok)) Hc3) as Hnq.
        change (((u :: u :: E (c3 :: s)) ++ [u; u; u] ++ tail)) with (repeat (st_unit d) 2 ++ (E (c3 :: s) ++ [u; u; u] ++ tail)).
        rewrite loop_run; [|exact Hm|destruct (E (c3 :: s)); [congruence|exact Hnq]].
        cbn [Nat.ltb Nat.leb repeat]. fold u. cbv zeta.
        cbn [List.length] in *.
        rewrite IH by (eauto; rewrite ?app_length; simpl; lia).
        rewrite mk_skip by exact Hmk. rewrite <- !app_assoc. reflexivity.
    + (* one quote, then something else *)
      assert (H3 : E (c2 :: s) <> []).
      { destruct (E_other c2 s) as (w & j & -> & _ & Hw & _); eauto. destruct w; [congruence|discriminate]. }
      rewrite (E_quote (c2 :: s)) in * by (auto; simpl; apply N.eqb_neq in Hc2; rewrite N.eqb_refl, N.eqb_sym, Hc2; reflexivity).
      destruct fuel; [lia|].
      pose proof (E_no_quote (c2 :: s) (ok_tail _ _ Hok) Hc2) as Hnq.
      change (((u :: E (c2 :: s)) ++ [u; u; u] ++ tail)) with (repeat (st_unit d) 1 ++ (E (c2 :: s) ++ [u; u; u] ++ tail)).
      rewrite loop_run; [|exact Hm|destruct (E (c2 :: s)); [congruence|exact Hnq]].
      cbn [Nat.ltb Nat.leb repeat]. fold u. cbv zeta.
      cbn [List.length] in *.
      rewrite IH by (eauto; rewrite ?app_length; simpl; lia).
      rewrite mk_skip by exact Hmk. rewrite <- !app_assoc. reflexivity.
  - destruct (E_other c s Hok Hcu) as (w & j & Ew & _ & _ & Hj & Hstep). rewrite Ew in *. rewrite app_length in Hf.
    rewrite <- app_assoc. replace fuel with (j + (fuel - j)) by lia.
    rewrite Hstep by auto.
    rewrite IH by (eauto; rewrite ?app_length; lia).
    rewrite mk_skip by exact Hmk. rewrite <- !app_assoc. reflexivity.
Qed.
End ML.

Notation E2 s := (esc_ref (escaped_sequences MLB) s 0).
Lemma mlb_body s fuel v pre mk tail :
  List.length (E2 s) < fuel -> mk <= List.length pre -> no_quote chDQ tail ->
  string_loop fuel MLB v false (mkSt pre (E2 s ++ [chDQ; chDQ; chDQ] ++ tail) mk)
  = (Ok (SStr MLB (v ++ s) (skipn mk pre ++ E2 s)), mkSt (pre ++ E2 s ++ [chDQ; chDQ; chDQ]) tail mk).
Proof.
  intros Hf Hmk Ht.
  apply (ml_body MLB (fun s => E2 s) (fun _ => True)) with (m := List.length s); auto.
  - (* other characters *)
    intros c s' _ Hc. cbn [st_unit] in Hc.
    assert (Hq : startswith q3 (c :: s') = false) by (simpl; apply N.eqb_neq in Hc; rewrite N.eqb_sym, Hc; reflexivity).
    rewrite (esc_ref_mlb_plain c s' Hq). destruct (mesc_char c) eqn:Ec.
    + assert (Hrb : reads_back c = true).
      { apply esc_char_reads. unfold mesc_char in Ec. unfold esc_char. lia. }
      exists (esc_seq [c]), 2. pose proof (esc_seq_len c Hrb) as Hl.
      assert (Hb : exists r, esc_seq [c] = chBSL :: r).
      { unfold reads_back in Hrb. destruct (esc_seq [c]) as [|b [|e hs]]; try discriminate.
        apply andb_true_iff in Hrb as [Hb _]. apply N.eqb_eq in Hb. subst. eauto. }
      destruct Hb as [r Hr].
      split; [reflexivity|]. split; [rewrite Hr; simpl; discriminate|]. split; [rewrite Hr; discriminate|].
      split; [lia|]. intros n v0 pre0 mk0 r0 Hr0. apply loop_escaped; auto.
    + exists [c], 1. simpl List.length.
      split; [reflexivity|]. split; [exact Hc|]. split; [discriminate|]. split; [lia|].
      intros n v0 pre0 mk0 r0 Hr0. cbn [app]. change (1 + n) with (S n). apply loop_plain; auto.
        -- unfold mesc_char, is_control, is_nl, chLF, chCR in Ec. unfold bad_string_char, chTAB, chLF, chCR. cbn [st_multiline]. lia.
        -- intros _. unfold mesc_char in Ec. lia.
  - intros s' _ Hs. cbn [st_unit] in Hs |- *. rewrite (esc_ref_mlb_plain chDQ s' Hs). reflexivity.
  - intros s' _. cbn [st_unit]. rewrite esc_ref_mlb_q3.
    exists [chDQ; chDQ; chBSL; chDQ], 3. simpl List.length. repeat split; try lia.
    intros n v0 pre0 mk0 r0 Hr0. change (3 + n) with (S (S (S n))).
    change ([chDQ; chDQ; chBSL; chDQ] ++ r0) with (repeat (st_unit MLB) 2 ++ (chBSL :: chDQ :: r0)).
    rewrite loop_run by (auto; discriminate). cbn [Nat.ltb Nat.leb repeat st_unit]. cbv zeta.
    rewrite loop_bsl by (auto; discriminate). rewrite (loop_esc _ _ _ _ _ chDQ chDQ) by auto.
    rewrite <- !app_assoc. reflexivity.
Qed.

(** ** Literal strings *)
Lemma invalid_none t v : existsb (fun q => substr q v) (invalid_sequences t) = false ->
  forall q, In q (invalid_sequences t) -> substr q v = false.
Proof.
  intros H q Hq. destruct (substr q v) eqn:E; [|reflexivity].
  assert (existsb (fun q => substr q v) (invalid_sequences t) = true); [|congruence].
  apply existsb_exists. eauto.
Qed.
Lemma in_forbidden c : In [c] (list_minus control_chars [[chTAB]]) <-> is_control c = true /\ c <> chTAB.
Proof.
  rewrite in_list_minus, in_control. split; intros [H1 H2]; split; auto.
  - intros ->. apply H2. left. reflexivity.
  - intros [E|[]]. inversion E. congruence.
Qed.
Definition valid_lit (t : strtype) (v : str) : Prop := existsb (fun q => substr q v) (invalid_sequences t) = false.
Lemma valid_sll v c : valid_lit SLL v -> In c v -> bad_string_char false c = false /\ c <> chSQ.
Proof.
  intros H Hc. split.
  - destruct (bad_string_char false c) eqn:E; [|reflexivity]. exfalso.
    assert (Hin : In [c] (invalid_sequences SLL)).
    { unfold invalid_sequences. apply in_or_app. left. apply in_forbidden.
      unfold bad_string_char, chTAB in *. unfold is_control. cbn [andb negb] in E. lia. }
    apply (invalid_none SLL v H) in Hin. rewrite substr_single in Hin. apply inb_In in Hc. congruence.
  - intros ->. assert (Hin : In [chSQ] (invalid_sequences SLL)) by (vm_compute; tauto).
    apply (invalid_none SLL v H) in Hin. rewrite substr_single in Hin. apply inb_In in Hc. congruence.
Qed.
Lemma valid_mll v c : valid_lit MLL v -> In c v -> bad_string_char true c = false.
Proof.
  intros H Hc.
  destruct (bad_string_char true c) eqn:E; [|reflexivity]. exfalso.
  assert (Hin : In [c] (invalid_sequences MLL)).
  { unfold invalid_sequences. apply in_list_minus. split.
    - apply in_or_app. left. apply in_forbidden.
      unfold bad_string_char, chTAB in *. unfold is_control. cbn [andb negb] in E. lia.
    - intros [F|[F|[]]]; inversion F; subst c; discriminate. }
  apply (invalid_none MLL v H) in Hin. rewrite substr_single in Hin. apply inb_In in Hc. congruence.
Qed.
Lemma valid_mll_q v : valid_lit MLL v -> substr [chSQ; chSQ; chSQ] v = false.
Proof. intros H. apply (invalid_none MLL v H). vm_compute. tauto. Qed.

Lemma sll_body s : forall fuel v pre mk tail, (forall c, In c s -> bad_string_char false c = false /\ c <> chSQ) ->
  List.length s < fuel -> mk <= List.length pre ->
  string_loop fuel SLL v false (mkSt pre (s ++ chSQ :: tail) mk)
  = (Ok (SStr SLL (v ++ s) (skipn mk pre ++ s)), mkSt (pre ++ s ++ [chSQ]) tail mk).
Proof.
  induction s as [|c s IH]; intros fuel v pre mk tail Hok Hf Hmk.
  - cbn [app]. destruct fuel; [simpl in Hf; lia|].
    change (chSQ) with (st_unit SLL). erewrite loop_close_single by reflexivity.
    rewrite !app_nil_r. reflexivity.
  - destruct fuel as [|fuel]; [simpl in Hf; lia|]. cbn [app].
    destruct (Hok c (or_introl eq_refl)) as [H1 H2].
    rewrite loop_plain; auto; [|destruct s; discriminate|cbn; discriminate].
    rewrite IH by (auto; rewrite ?app_length; simpl in *; auto; lia).
    rewrite mk_skip by exact Hmk. rewrite <- !app_assoc. reflexivity.
Qed.

Lemma mll_body s fuel v pre mk tail :
  (forall c, In c s -> bad_string_char true c = false) -> substr [chSQ; chSQ; chSQ] s = false ->
  List.length s < fuel -> mk <= List.length pre -> no_quote chSQ tail ->
  string_loop fuel MLL v false (mkSt pre (s ++ [chSQ; chSQ; chSQ] ++ tail) mk)
  = (Ok (SStr MLL (v ++ s) (skipn mk pre ++ s)), mkSt (pre ++ s ++ [chSQ; chSQ; chSQ]) tail mk).
Proof.
  intros Hc Hq Hf Hmk Ht.
  apply (ml_body MLL (fun s => s) (fun s => (forall c, In c s -> bad_string_char true c = false) /\ substr [chSQ; chSQ; chSQ] s = false))
    with (m := List.length s); auto.
  - intros c s' [H1 H2]. split; [intros x Hx; apply H1; right; exact Hx|].
    cbn [substr] in H2. apply orb_false_iff in H2 as [_ H2]. exact H2.
  - intros c s' [H1 H2] Hc'. exists [c], 1. simpl List.length.
    split; [reflexivity|]. split; [exact Hc'|]. split; [discriminate|]. split; [lia|].
    intros n v0 pre0 mk0 r0 Hr0. change (1 + n) with (S n). cbn [app]. apply loop_plain; auto.
      * apply H1. left. reflexivity.
      * discriminate.
  - intros s' [H1 H2]. cbn in H2. discriminate.
Qed.

(** ** Whole tokens *)
Lemma st_value_shape t : st_value t = (if st_multiline t then [st_unit t; st_unit t; st_unit t] else [st_unit t]).
Proof. destruct t; reflexivity. Qed.

(** opening a single-line string with non-empty content not starting with the quote *)
Lemma open_single t fuel pre c r mk : st_multiline t = false -> c <> st_unit t ->
  parse_string fuel t (mkSt pre (st_unit t :: c :: r) mk)
  = string_loop fuel t [] false (mkSt (pre ++ [st_unit t]) (c :: r) (List.length (pre ++ [st_unit t]))).
Proof.
  intros Hm Hc. apply N.eqb_neq in Hc.
  unfold parse_string. unfold bind at 1, current at 1, cur; cbn [p_rest]. rewrite N.eqb_refl. cbn [negb].
  unfold bind at 1. rewrite inc_exn_ok by discriminate.
  unfold bind at 1, current at 1, cur; cbn [p_rest].
  unfold bind at 1. rewrite Hc. unfold ret at 1. unfold bind at 1, mark, set_mark. cbn [p_pre p_rest].
  unfold bind. rewrite Hm. reflexivity.
Qed.
Lemma open_empty t fuel pre tail mk : st_multiline t = false -> no_quote (st_unit t) tail ->
  parse_string fuel t (mkSt pre (st_unit t :: st_unit t :: tail) mk)
  = (Ok (SStr t [] []), mkSt (pre ++ [st_unit t; st_unit t]) tail mk).
Proof.
  intros Hm Ht. unfold parse_string. unfold bind at 1, current at 1, cur; cbn [p_rest]. rewrite N.eqb_refl. cbn [negb].
  unfold bind at 1. rewrite inc_exn_ok by discriminate.
  unfold bind at 1, current at 1, cur; cbn [p_rest]. rewrite N.eqb_refl.
  unfold bind. rewrite incM_st. unfold current, cur; cbn [p_rest].
  destruct tail as [|c tl]; [rewrite <- app_assoc; reflexivity|].
  simpl in Ht. apply N.eqb_neq in Ht. rewrite Ht. cbn [negb orb]. rewrite <- app_assoc. reflexivity.
Qed.
Lemma open_multi t fuel pre r mk : st_multiline t = true -> r <> [] ->
  (hd 0%N r <> chLF) -> startswith [chCR; chLF] r = false ->
  parse_string fuel (st_toggle t) (mkSt pre ([st_unit t; st_unit t; st_unit t] ++ r) mk)
  = string_loop fuel t [] false (mkSt (pre ++ [st_unit t; st_unit t; st_unit t]) r (List.length (pre ++ [st_unit t; st_unit t; st_unit t]))).
Proof.
  intros Hm Hr Hlf Hcrlf. assert (Hu : st_unit (st_toggle t) = st_unit t) by (destruct t; reflexivity).
  assert (Htt : st_toggle (st_toggle t) = t) by (destruct t; reflexivity).
  unfold parse_string. unfold bind at 1, current at 1, cur; cbn [p_rest app]. rewrite Hu, N.eqb_refl. cbn [negb].
  unfold bind at 1. rewrite inc_exn_ok by discriminate.
  unfold bind at 1, current at 1, cur; cbn [p_rest]. rewrite N.eqb_refl.
  unfold bind at 1 2. rewrite incM_st. unfold bind at 1, current at 1, cur; cbn [p_rest negb orb]. rewrite N.eqb_refl. cbn [negb].
  unfold bind at 1. rewrite inc_exn_ok by exact Hr. unfold ret at 1. rewrite Htt.
  rewrite <- !app_assoc. cbn [app].
  unfold bind at 1, mark, set_mark. cbn [p_pre p_rest]. rewrite Hm.
  unfold bind at 1. unfold skip_first_newline. unfold bind at 1, current at 1, cur; cbn [p_rest].
  destruct r as [|c r]; [congruence|]. simpl in Hlf. apply N.eqb_neq in Hlf. rewrite Hlf.
  unfold bind at 1, restoring, bind at 1. rewrite incM_st. unfold bind, current, cur, ret. cbn [p_pre p_rest p_mark].
  assert (Ec : (c =? chCR)%N && match (if match r with [] => false | _ :: _ => true end then Some match r with [] => chNUL | c0 :: _ => c0 end else None) with Some c2 => (c2 =? chLF)%N | None => false end = false).
  { destruct r as [|c2 r]; [rewrite andb_false_r; reflexivity|]. simpl in Hcrlf. rewrite andb_true_r in Hcrlf.
    rewrite !(N.eqb_sym _ c), !(N.eqb_sym _ c2) in Hcrlf. exact Hcrlf. }
  rewrite Ec. reflexivity.
Qed.

(** The four styles. *)
Lemma slb_token s fuel pre mk tail : List.length (E1 s) < fuel -> no_quote chDQ tail ->
  exists mk', parse_string fuel SLB (mkSt pre ([chDQ] ++ E1 s ++ [chDQ] ++ tail) mk)
  = (Ok (SStr SLB s (E1 s)), mkSt (pre ++ [chDQ] ++ E1 s ++ [chDQ]) tail mk').
Proof.
  intros Hf Ht. destruct s as [|c s].
  - exists mk. cbn [esc_ref app]. apply (open_empty SLB); auto.
  - pose proof (esc_ref_slb c s) as E.
    assert (Hh : exists x r, E1 (c :: s) = x :: r /\ x <> chDQ).
    { rewrite E. destruct (esc_char c) eqn:Ec.
      - pose proof (esc_char_reads c Ec) as Hrb. unfold reads_back in Hrb.
        destruct (esc_seq [c]) as [|b [|e hs]]; try discriminate.
        apply andb_true_iff in Hrb as [Hb _]. apply N.eqb_eq in Hb. subst b. simpl. eexists _, _. split; [reflexivity|discriminate].
      - simpl. eexists _, _. split; [reflexivity|]. unfold esc_char in Ec. lia. }
    destruct Hh as (x & r & Hx & Hxq). exists (List.length (pre ++ [chDQ])).
    rewrite Hx at 1. cbn [app]. change chDQ with (st_unit SLB) at 1. rewrite open_single by auto.
    change (x :: r ++ chDQ :: tail) with ((x :: r) ++ chDQ :: tail). rewrite <- Hx.
    cbn [st_unit]. rewrite slb_body by auto. rewrite skipn_all, <- !app_assoc. reflexivity.
Qed.
Lemma sll_token s fuel pre mk tail : valid_lit SLL s -> List.length s < fuel -> no_quote chSQ tail ->
  exists mk', parse_string fuel SLL (mkSt pre ([chSQ] ++ s ++ [chSQ] ++ tail) mk)
  = (Ok (SStr SLL s s), mkSt (pre ++ [chSQ] ++ s ++ [chSQ]) tail mk').
Proof.
  intros Hv Hf Ht. pose proof (valid_sll s) as Hc. destruct s as [|c s].
  - exists mk. cbn [app]. apply (open_empty SLL); auto.
  - exists (List.length (pre ++ [chSQ])). cbn [app]. change chSQ with (st_unit SLL) at 1.
    rewrite open_single; auto; [|apply Hc; [exact Hv|left; reflexivity]].
    change (c :: s ++ chSQ :: tail) with ((c :: s) ++ chSQ :: tail).
    cbn [st_unit]. rewrite sll_body by auto. rewrite skipn_all, <- !app_assoc. reflexivity.
Qed.
Definition no_first_newline (s : str) : Prop := hd 0%N s <> chLF /\ startswith [chCR; chLF] s = false.
Lemma esc_mlb_head s : no_first_newline s -> hd 0%N (E2 s ++ [chDQ; chDQ; chDQ]) <> chLF /\
  startswith [chCR; chLF] (E2 s ++ [chDQ; chDQ; chDQ]) = false.
Proof.
  intros [H1 H2]. destruct s as [|c s]; [split; [discriminate|reflexivity]|].
  simpl in H1.
  destruct (startswith q3 (c :: s)) eqn:Eq.
  { apply startswith_spec in Eq as [r Hr]. rewrite Hr. change (q3 ++ r) with (chDQ :: chDQ :: chDQ :: r).
    rewrite esc_ref_mlb_q3. split; [discriminate|reflexivity]. }
  rewrite (esc_ref_mlb_plain c s Eq). destruct (mesc_char c) eqn:Ec.
  { assert (Hrb : reads_back c = true) by (apply esc_char_reads; unfold mesc_char in Ec; unfold esc_char; lia).
    unfold reads_back in Hrb. destruct (esc_seq [c]) as [|b [|e hs]]; try discriminate.
    apply andb_true_iff in Hrb as [Hb _]. apply N.eqb_eq in Hb. subst b. split; [discriminate|reflexivity]. }
  cbn [app hd]. split; [exact H1|].
  cbn [startswith]. destruct (N.eqb_spec chCR c) as [<-|]; [|reflexivity].
  cbn [andb]. destruct s as [|c2 s]; [reflexivity|].
  cbn [startswith] in H2. rewrite N.eqb_refl in H2. cbn [andb] in H2. rewrite andb_true_r in H2.
  destruct (startswith q3 (c2 :: s)) eqn:Eq2.
  { apply startswith_spec in Eq2 as [r Hr]. rewrite Hr. change (q3 ++ r) with (chDQ :: chDQ :: chDQ :: r).
    rewrite esc_ref_mlb_q3. reflexivity. }
  rewrite (esc_ref_mlb_plain c2 s Eq2). destruct (mesc_char c2) eqn:Ec2.
  { assert (Hrb : reads_back c2 = true) by (apply esc_char_reads; unfold mesc_char in Ec2; unfold esc_char; lia).
    unfold reads_back in Hrb. destruct (esc_seq [c2]) as [|b [|e hs]]; try discriminate.
    apply andb_true_iff in Hrb as [Hb _]. apply N.eqb_eq in Hb. subst b. reflexivity. }
  cbn [app startswith]. rewrite H2. reflexivity.
Qed.
Lemma mlb_token s fuel pre mk tail : no_first_newline s -> List.length (E2 s) < fuel -> no_quote chDQ tail ->
  exists mk', parse_string fuel SLB (mkSt pre (q3 ++ E2 s ++ q3 ++ tail) mk)
  = (Ok (SStr MLB s (E2 s)), mkSt (pre ++ q3 ++ E2 s ++ q3) tail mk').
Proof.
  intros Hn Hf Ht. exists (List.length (pre ++ q3)).
  pose proof (esc_mlb_head s Hn) as [Hh1 Hh2].
  change (q3 ++ E2 s ++ q3 ++ tail) with ([st_unit MLB; st_unit MLB; st_unit MLB] ++ (E2 s ++ q3 ++ tail)).
  assert (Hh1' : hd 0%N (E2 s ++ q3 ++ tail) <> chLF) by (destruct (E2 s); [discriminate|exact Hh1]).
  assert (Hh2' : startswith [chCR; chLF] (E2 s ++ q3 ++ tail) = false).
  { destruct (E2 s) as [|x [|y r]]; [reflexivity| |exact Hh2].
    simpl. rewrite andb_false_r. reflexivity. }
  change SLB with (st_toggle MLB).
  rewrite open_multi; auto; [|destruct (E2 s); discriminate].
  cbn [st_unit]. change [chDQ; chDQ; chDQ] with q3. unfold q3 at 2. rewrite mlb_body by (auto; lia).
  rewrite skipn_all, <- !app_assoc. reflexivity.
Qed.
Lemma mll_token s fuel pre mk tail : valid_lit MLL s -> no_first_newline s -> List.length s < fuel -> no_quote chSQ tail ->
  exists mk', parse_string fuel SLL (mkSt pre ([chSQ; chSQ; chSQ] ++ s ++ [chSQ; chSQ; chSQ] ++ tail) mk)
  = (Ok (SStr MLL s s), mkSt (pre ++ [chSQ; chSQ; chSQ] ++ s ++ [chSQ; chSQ; chSQ]) tail mk').
Proof.
  intros Hv [Hn1 Hn2] Hf Ht. exists (List.length (pre ++ [chSQ; chSQ; chSQ])).
  change ([chSQ; chSQ; chSQ] ++ s ++ [chSQ; chSQ; chSQ] ++ tail) with ([st_unit MLL; st_unit MLL; st_unit MLL] ++ (s ++ [chSQ; chSQ; chSQ] ++ tail)).
  change SLL with (st_toggle MLL).
  rewrite open_multi; auto.
  - cbn [st_unit]. rewrite mll_body; auto.
    + rewrite skipn_all, <- !app_assoc. reflexivity.
    + intros c Hc. eapply valid_mll; eauto.
    + apply valid_mll_q; exact Hv.
  - destruct s; discriminate.
  - destruct s; [discriminate|exact Hn1].
  - destruct s as [|x [|y r]]; [reflexivity| |exact Hn2]. simpl. rewrite andb_false_r. reflexivity.
Qed.
