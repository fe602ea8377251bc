(** Strings: what the string reader does on text produced by [escape_string]
    (C05-C08, C16) and on unicode escapes (C26). *)
From Verif Require Import Base Source Utils Items Container Arrays Parser Lemmas Escape.
From Coq Require Import ZifyBool ZifyNat ZifyN Permutation.
Open Scope nat_scope.

Lemma inc_ok pre c r mk : r <> [] -> inc (mkSt pre (c :: r) mk) = (true, mkSt (pre ++ [c]) r mk).
Proof. intros H. unfold inc; simpl. destruct r; [congruence|reflexivity]. Qed.
Lemma inc_exn_ok k pre c r mk : r <> [] -> inc_exn k (mkSt pre (c :: r) mk) = (Ok tt, mkSt (pre ++ [c]) r mk).
Proof. intros H. unfold inc_exn. rewrite inc_ok by exact H. reflexivity. Qed.
Lemma incM_any pre c r mk : exists b, incM (mkSt pre (c :: r) mk) = (Ok b, mkSt (pre ++ [c]) r mk).
Proof. unfold incM, inc; simpl. eauto. Qed.
Lemma incM_st pre c r mk :
  incM (mkSt pre (c :: r) mk) = (Ok (match r with [] => false | _ => true end), mkSt (pre ++ [c]) r mk).
Proof. reflexivity. Qed.
Lemma inc_n_exact w : forall pre r mk, r <> [] ->
  inc_n (List.length w) (mkSt pre (w ++ r) mk) = (true, mkSt (pre ++ w) r mk).
Proof.
  induction w as [|c w IH]; intros pre r mk H; simpl.
  - rewrite app_nil_r. reflexivity.
  - assert (w ++ r <> []) by (destruct w; [exact H|discriminate]).
    unfold inc; simpl. destruct (w ++ r) eqn:E; [congruence|]. rewrite <- E, IH by exact H.
    rewrite <- app_assoc. reflexivity.
Qed.
Lemma inc_nM_exact w n pre r mk : n = List.length w -> r <> [] ->
  inc_nM n (mkSt pre (w ++ r) mk) = (Ok true, mkSt (pre ++ w) r mk).
Proof. intros -> H. unfold inc_nM. rewrite inc_n_exact by exact H. reflexivity. Qed.

Lemma escaped_value_ws e x : escaped_value e = Some x -> is_ws e = false.
Proof.
  unfold escaped_value, is_ws, is_spaces, is_nl, chSP, chTAB, chLF, chCR.
  intros H. repeat match type of H with (if ?b then _ else _) = _ => destruct b eqn:? end; try discriminate;
  match goal with E : (_ =? _)%N = true |- _ => apply N.eqb_eq in E; subst end; reflexivity.
Qed.

Section Steps.
Variables (d : strtype) (n : nat) (v pre : str) (mk : nat).

Lemma loop_plain c r : r <> [] -> bad_string_char (st_multiline d) c = false -> c <> st_unit d ->
  (st_basic d = true -> c <> chBSL) ->
  string_loop (S n) d v false (mkSt pre (c :: r) mk) = string_loop n d (v ++ [c]) false (mkSt (pre ++ [c]) r mk).
Proof.
  intros Hr Hb Hu Hbs. cbn [string_loop]. unfold bind, current, cur; cbn [p_rest].
  rewrite Hb. cbn [negb andb]. apply N.eqb_neq in Hu. rewrite Hu.
  rewrite andb_false_r.
  assert (E : st_basic d && (c =? chBSL)%N = false).
  { destruct (st_basic d); [|reflexivity]. simpl. apply N.eqb_neq. auto. }
  rewrite E. rewrite inc_exn_ok by exact Hr. reflexivity.
Qed.

Lemma loop_bsl r : st_basic d = true -> r <> [] ->
  string_loop (S n) d v false (mkSt pre (chBSL :: r) mk) = string_loop n d v true (mkSt (pre ++ [chBSL]) r mk).
Proof.
  intros Hb Hr. cbn [string_loop]. unfold bind, current, cur; cbn [p_rest].
  assert (E1 : bad_string_char (st_multiline d) chBSL = false) by (destruct d; reflexivity).
  assert (E2 : (chBSL =? st_unit d)%N = false) by (destruct d; reflexivity).
  rewrite E1, E2, Hb. cbn [negb andb]. rewrite N.eqb_refl. cbn [andb].
  rewrite inc_exn_ok by exact Hr. reflexivity.
Qed.

Lemma loop_esc e x r : st_basic d = true -> escaped_value e = Some x -> r <> [] ->
  string_loop (S n) d v true (mkSt pre (e :: r) mk) = string_loop n d (v ++ [x]) false (mkSt (pre ++ [e]) r mk).
Proof.
  intros Hb He Hr. cbn [string_loop]. unfold bind at 1, current, cur; cbn [p_rest negb andb].
  rewrite Hb. cbn [andb]. unfold bind, parse_escaped_char, bind, current, cur; cbn [p_rest].
  rewrite (escaped_value_ws _ _ He), andb_false_r, He.
  rewrite inc_exn_ok by exact Hr. reflexivity.
Qed.

(** A [\u] / [\U] escape whose digits are accepted. *)
Definition uni_ok (hs : str) (x : char) : Prop :=
  (match hs with a :: b :: _ => (lower_c a =? 100)%N && negb ((48 <=? b)%N && (b <=? 55)%N) = false | _ => True end)
  /\ exists z, py_int hs 16 = Some z /\ (0 <= z <= 1114111)%Z /\ x = Z.to_N z.
Lemma loop_uni (long : bool) hs x r :
  st_basic d = true -> List.length hs = (if long then 8 else 4) -> uni_ok hs x -> r <> [] ->
  string_loop (S n) d v true (mkSt pre ((if long then 85 else 117)%N :: hs ++ r) mk)
  = string_loop n d (v ++ [x]) false (mkSt (pre ++ (if long then 85 else 117)%N :: hs) r mk).
Proof.
  intros Hb Hl [Hbad [z [Hz [Hr1 Hx]]]] Hr. cbn [string_loop]. unfold bind at 1, current at 1, cur; cbn [p_rest negb andb].
  rewrite Hb. cbn [andb].
  set (u := (if long then 85 else 117)%N).
  assert (Hws : is_ws u = false) by (destruct long; reflexivity).
  assert (Hev : escaped_value u = None) by (destruct long; reflexivity).
  assert (Hu : ((u =? 117) || (u =? 85))%N = true) by (destruct long; reflexivity).
  assert (Hu2 : (u =? 85)%N = long) by (destruct long; reflexivity).
  assert (Hne : hs ++ r <> []) by (destruct hs; [exact Hr|discriminate]).
  unfold bind at 1. unfold parse_escaped_char. unfold bind at 1, current at 1, cur; cbn [p_rest].
  rewrite Hws, andb_false_r, Hev, Hu, Hu2.
  assert (Hpk : peek_unicode long (mkSt pre (u :: hs ++ r) mk) = (Ok (Some (x, hs)), mkSt pre (u :: hs ++ r) mk)).
  { unfold peek_unicode, restoring_all. unfold bind at 1, current, cur; cbn [p_rest]. rewrite Hu. cbn [negb].
    unfold bind at 1. rewrite incM_st. unfold bind at 1, mark, set_mark. cbn [p_pre p_rest].
    unfold bind at 1. rewrite inc_nM_exact by auto. cbn [negb].
    unfold bind, extractM, extract. cbn [p_mark p_pre]. rewrite skipn_length_app.
    assert (E : match hs with
                | a :: b :: _ => (lower_c a =? 100)%N && negb ((48 <=? b)%N && (b <=? 55)%N)
                | _ => false end = false) by (destruct hs as [|? [|? ?]]; auto).
    rewrite E, Hz.
    replace ((0 <=? z)%Z && (z <=? 1114111)%Z) with true by lia.
    subst x. reflexivity. }
  unfold bind at 1. rewrite Hpk.
  unfold bind. change (u :: hs ++ r) with ((u :: hs) ++ r).
  rewrite inc_nM_exact by auto. reflexivity.
Qed.

Lemma loop_close_single r orig :
  st_multiline d = false -> skipn mk pre = orig ->
  string_loop (S n) d v false (mkSt pre (st_unit d :: r) mk) = (Ok (SStr d v orig), mkSt (pre ++ [st_unit d]) r mk).
Proof.
  intros Hm <-. cbn [string_loop]. unfold bind, current, cur; cbn [p_rest].
  assert (E1 : bad_string_char (st_multiline d) (st_unit d) = false) by (destruct d; reflexivity).
  rewrite E1. cbn [negb andb]. rewrite N.eqb_refl, Hm. unfold extractM, extract. cbn [p_mark p_pre].
  rewrite incM_st. reflexivity.
Qed.

(** A run of [k] quotes inside or at the end of a multi-line string *)
Lemma take_run (u : char) k r : (match r with [] => True | c :: _ => c <> u end) ->
  take_while (fun x => (x =? u)%N) (repeat u k ++ r) = repeat u k
  /\ drop_while (fun x => (x =? u)%N) (repeat u k ++ r) = r.
Proof.
  intros Hr. apply take_while_app.
  - apply Forall_forall. intros x Hx. apply repeat_spec in Hx. subst. apply N.eqb_refl.
  - destruct r; [exact I|]. apply N.eqb_neq. exact Hr.
Qed.
Lemma loop_run k r : st_multiline d = true -> (match r with [] => True | c :: _ => c <> st_unit d end) ->
  string_loop (S n) d v false (mkSt pre (repeat (st_unit d) (S k) ++ r) mk) =
  let st' := mkSt (pre ++ repeat (st_unit d) (S k)) r mk in
  if Nat.ltb (S k) 3 then string_loop n d (v ++ repeat (st_unit d) (S k)) false st'
  else if Nat.eqb (S k) 3 then (Ok (SStr d v (skipn mk pre)), st')
  else if Nat.leb 6 (S k) then raise (KInvalidCharInString (cur st')) st'
  else (Ok (SStr d (v ++ repeat (st_unit d) (S k - 3)) (skipn mk pre ++ repeat (st_unit d) (S k - 3))), st').
Proof.
  intros Hm Hr. cbn [string_loop]. unfold bind at 1, current at 1.
  change (cur (mkSt pre (repeat (st_unit d) (S k) ++ r) mk)) with (st_unit d).
  assert (E1 : bad_string_char (st_multiline d) (st_unit d) = false) by (destruct d; reflexivity).
  rewrite E1. cbn [negb andb]. rewrite N.eqb_refl, Hm.
  unfold bind at 1, extractM, extract. cbn [p_mark p_pre]. unfold bind at 1, get. cbn [p_rest].
  unfold bind at 1, adv_whileM, adv_while. cbn [p_rest p_pre p_mark].
  destruct (take_run (st_unit d) (S k) r Hr) as [Et Ed]. rewrite Et, Ed.
  rewrite repeat_length. cbv zeta.
  assert (Ef : forall j, j <= S k -> firstn j (repeat (st_unit d) (S k)) = repeat (st_unit d) j).
  { intros j Hj. replace (S k) with (j + (S k - j)) by lia. rewrite repeat_app.
    rewrite <- (repeat_length (st_unit d) j) at 1. apply firstn_length_app. }
  rewrite Ef by lia.
  destruct (Nat.ltb (S k) 3); [reflexivity|]. destruct (Nat.eqb (S k) 3); [reflexivity|].
  destruct (Nat.leb 6 (S k)); reflexivity.
Qed.
End Steps.

(** ** Escape sets *)
Lemma in_control c : In [c] control_chars <-> is_control c = true.
Proof.
  unfold control_chars, is_control. rewrite in_app_iff, in_map_iff. split.
  - intros [[x [Hx Hs]]|[H|[]]].
    + inversion Hx. apply in_seq in Hs. lia.
    + inversion H. reflexivity.
  - intros H. apply orb_true_iff in H as [H|H].
    + left. exists (N.to_nat c). split; [f_equal; lia|]. apply in_seq. lia.
    + right. left. f_equal. lia.
Qed.
Lemma control_single q : In q control_chars -> exists c, q = [c].
Proof.
  unfold control_chars. rewrite in_app_iff, in_map_iff. intros [[x [Hx Hs]]|[H|[]]]; eauto.
Qed.

Definition esc_char (c : char) : bool := is_control c || (c =? chBSL)%N || (c =? chDQ)%N.
Lemma in_slb c : In [c] (escaped_sequences SLB) <-> esc_char c = true.
Proof.
  unfold escaped_sequences, esc_char. rewrite !in_app_iff, in_control. simpl. split.
  - intros [[H|[H|[]]]|[H|[]]]; [rewrite H; reflexivity| |]; inversion H; reflexivity.
  - intros H. apply orb_true_iff in H as [H|H]; [apply orb_true_iff in H as [H|H]|]; auto.
    + left. right. left. f_equal. lia.
    + right. left. f_equal. lia.
Qed.
Lemma slb_single q : In q (escaped_sequences SLB) -> exists c, q = [c].
Proof.
  unfold escaped_sequences. rewrite !in_app_iff. intros [[H|[H|[]]]|[H|[]]]; eauto using control_single.
Qed.
Lemma in_list_minus q a b : In q (list_minus a b) <-> In q a /\ ~ In q b.
Proof.
  unfold list_minus. rewrite filter_In, negb_true_iff. split; intros [H1 H2]; split; auto.
  - intros H. assert (existsb (str_eqb q) b = true); [|congruence].
    apply existsb_exists. exists q. split; auto. apply str_eqb_refl.
  - destruct (existsb (str_eqb q) b) eqn:E; [|reflexivity]. exfalso. apply H2.
    apply existsb_exists in E as [x [Hx He]]. apply str_eqb_eq in He. subst. exact Hx.
Qed.
Definition mesc_char (c : char) : bool := (is_control c && negb (is_nl c)) || (c =? chBSL)%N.
Lemma in_mlb c : In [c] (escaped_sequences MLB) <-> mesc_char c = true.
Proof.
  unfold escaped_sequences, mesc_char. rewrite in_list_minus, !in_app_iff, in_control. unfold is_nl. simpl. split.
  - intros [H1 H2].
    assert (Hc : c <> chLF /\ c <> chCR) by (split; intros ->; apply H2; auto).
    destruct H1 as [[H|[H|[]]]|[H|[]]]; [|inversion H; reflexivity|discriminate].
    unfold chLF, chCR in *. lia.
  - intros H. apply orb_true_iff in H as [H|H].
    + split; [left; left; lia|]. intros [E|[E|[]]]; inversion E; subst; discriminate.
    + apply N.eqb_eq in H. subst. split; [auto|]. intros [E|[E|[]]]; inversion E.
Qed.
Definition q3 : str := [chDQ; chDQ; chDQ].
Lemma mlb_cases q : In q (escaped_sequences MLB) -> (exists c, q = [c]) \/ q = q3.
Proof.
  unfold escaped_sequences. rewrite in_list_minus, !in_app_iff. intros [[[H|[H|[]]]|[H|[]]] _]; eauto using control_single.
Qed.
Lemma q3_in : In q3 (escaped_sequences MLB).
Proof. vm_compute. tauto. Qed.

Lemma esc_ref_slb c s :
  esc_ref (escaped_sequences SLB) (c :: s) 0
  = (if esc_char c then esc_seq [c] else [c]) ++ esc_ref (escaped_sequences SLB) s 0.
Proof.
  cbn [esc_ref]. destruct (esc_char c) eqn:E.
  - rewrite (find_unique _ _ [c]); [reflexivity|apply in_slb; exact E|simpl; rewrite N.eqb_refl; reflexivity|].
    intros q' H1 H2. apply slb_single in H1 as [x ->]. simpl in H2. rewrite andb_true_r in H2. apply N.eqb_eq in H2. congruence.
  - destruct (find _ _) eqn:F; [|reflexivity]. exfalso. apply find_some in F as [H1 H2].
    pose proof H1 as H3. apply slb_single in H3 as [x ->]. simpl in H2. rewrite andb_true_r in H2. apply N.eqb_eq in H2. subst x.
    apply in_slb in H1. congruence.
Qed.
Lemma esc_ref_mlb_plain c s : startswith q3 (c :: s) = false ->
  esc_ref (escaped_sequences MLB) (c :: s) 0
  = (if mesc_char c then esc_seq [c] else [c]) ++ esc_ref (escaped_sequences MLB) s 0.
Proof.
  intros Hq. cbn [esc_ref]. destruct (mesc_char c) eqn:E.
  - rewrite (find_unique _ _ [c]); [reflexivity|apply in_mlb; exact E|simpl; rewrite N.eqb_refl; reflexivity|].
    intros q' H1 H2. apply mlb_cases in H1 as [[x ->]| ->]; [|congruence].
    simpl in H2. rewrite andb_true_r in H2. apply N.eqb_eq in H2. congruence.
  - destruct (find _ _) eqn:F; [|reflexivity]. exfalso. apply find_some in F as [H1 H2].
    pose proof H1 as H3. apply mlb_cases in H3 as [[x ->]| ->]; [|congruence].
    simpl in H2. rewrite andb_true_r in H2. apply N.eqb_eq in H2. subst x.
    apply in_mlb in H1. congruence.
Qed.
Lemma esc_ref_mlb_q3 s :
  esc_ref (escaped_sequences MLB) (chDQ :: chDQ :: chDQ :: s) 0
  = [chDQ; chDQ; chBSL; chDQ] ++ esc_ref (escaped_sequences MLB) s 0.
Proof.
  cbn [esc_ref].
  rewrite (find_unique _ _ q3); [reflexivity|apply q3_in|reflexivity|].
  intros q' H1 H2. apply mlb_cases in H1 as H3. destruct H3 as [[x ->]| ->]; [|reflexivity].
  simpl in H2. rewrite andb_true_r in H2. apply N.eqb_eq in H2. subst x.
  apply in_mlb in H1. discriminate.
Qed.

(** Every escaped character reads back: two loop steps. *)
Definition uni_okb (hs : str) (x : char) : bool :=
  (match hs with a :: b :: _ => negb ((lower_c a =? 100)%N && negb ((48 <=? b)%N && (b <=? 55)%N)) | _ => true end)
  && match py_int hs 16 with Some z => (z =? Z.of_N x)%Z | None => false end && (x <=? 1114111)%N.
Lemma uni_okb_ok hs x : uni_okb hs x = true -> uni_ok hs x.
Proof.
  unfold uni_okb, uni_ok. intros H. apply andb_true_iff in H as [H H3]. apply andb_true_iff in H as [H1 H2]. split.
  - destruct hs as [|a [|b r]]; auto. apply negb_true_iff. exact H1.
  - destruct (py_int hs 16) as [z|]; [|discriminate]. exists z. split; [reflexivity|]. lia.
Qed.
Definition reads_back (c : char) : bool :=
  match esc_seq [c] with
  | b :: e :: hs => (b =? chBSL)%N &&
      match escaped_value e with
      | Some x => (x =? c)%N && (match hs with [] => true | _ => false end)
      | None => (e =? 117)%N && Nat.eqb (List.length hs) 4 && uni_okb hs c
      end
  | _ => false
  end.
Lemma reads_back_all : forallb reads_back (92 :: 34 :: 127 :: map N.of_nat (seq 0 32))%N = true.
Proof. vm_compute. reflexivity. Qed.
Lemma esc_char_reads c : esc_char c = true -> reads_back c = true.
Proof.
  intros H. pose proof reads_back_all as A. rewrite forallb_forall in A. apply A.
  unfold esc_char, is_control, chBSL, chDQ in H.
  destruct (N.eqb_spec c 92); [subst; simpl; auto|].
  destruct (N.eqb_spec c 34); [subst; simpl; auto|].
  destruct (N.eqb_spec c 127); [subst; simpl; auto|].
  right. right. right. apply in_map_iff. exists (N.to_nat c). split; [lia|]. apply in_seq. lia.
Qed.
Lemma loop_escaped d n v pre mk c r : st_basic d = true -> reads_back c = true -> r <> [] ->
  string_loop (S (S n)) d v false (mkSt pre (esc_seq [c] ++ r) mk)
  = string_loop n d (v ++ [c]) false (mkSt (pre ++ esc_seq [c]) r mk).
Proof.
  intros Hb H Hr. unfold reads_back in H. destruct (esc_seq [c]) as [|b [|e hs]]; try discriminate.
  apply andb_true_iff in H as [H1 H2]. apply N.eqb_eq in H1. subst b.
  cbn [app]. rewrite loop_bsl by (auto; discriminate).
  destruct (escaped_value e) as [x|] eqn:Ee.
  - apply andb_true_iff in H2 as [H2 H3]. apply N.eqb_eq in H2. subst x. destruct hs; [|discriminate].
    cbn [app]. rewrite (loop_esc _ _ _ _ _ e c) by auto. rewrite <- app_assoc. reflexivity.
  - apply andb_true_iff in H2 as [H2 H3]. apply andb_true_iff in H2 as [H2 H4].
    apply N.eqb_eq in H2. subst e. apply Nat.eqb_eq in H4. apply uni_okb_ok in H3.
    rewrite (loop_uni d n v _ mk false hs c r) by auto. rewrite <- app_assoc. reflexivity.
Qed.
