(** Unicode: the \u and \U escapes of basic strings (C26). *)
From Verif Require Import Base Source Utils Items Container Arrays Parser Api Lemmas Escape Strings StringRT StringApi Numbers.
From Coq Require Import ZifyBool ZifyNat ZifyN Permutation.
Open Scope nat_scope.

(** Reading an escaped text up to an arbitrary continuation. *)
Lemma slb_prefix s : forall fuel v pre mk r, List.length (E1 s) <= fuel -> r <> [] ->
  exists k, fuel <= k + List.length (E1 s) /\
  string_loop fuel SLB v false (mkSt pre (E1 s ++ r) mk)
  = string_loop k SLB (v ++ s) false (mkSt (pre ++ E1 s) r mk).
Proof.
  induction s as [|c s IH]; intros fuel v pre mk r Hf Hr.
  - exists fuel. split; [lia|]. cbn [esc_ref app]. rewrite !app_nil_r. reflexivity.
  - rewrite esc_ref_slb in *. rewrite app_length in *. rewrite <- app_assoc.
    assert (Hne : E1 s ++ r <> []) by (destruct (E1 s); [exact Hr|discriminate]).
    destruct (esc_char c) eqn:Ec; rewrite ?Ec in Hf.
    + pose proof (esc_char_reads c Ec) as Hrb. pose proof (esc_seq_len c Hrb) as Hl.
      destruct fuel as [|[|fuel]]; [lia|lia|].
      rewrite loop_escaped by auto.
      destruct (IH fuel (v ++ [c]) (pre ++ esc_seq [c]) mk r) as (k & Hk & E); [lia|exact Hr|].
      exists k. split; [lia|]. rewrite E, <- !app_assoc. reflexivity.
    + destruct fuel as [|fuel]; [simpl in Hf; lia|]. cbn [app List.length] in *.
      unfold esc_char, is_control, chBSL, chDQ in Ec.
      rewrite loop_plain; [|exact Hne| | |].
      * destruct (IH fuel (v ++ [c]) (pre ++ [c]) mk r) as (k & Hk & E); [lia|exact Hr|].
        exists k. split; [lia|]. rewrite E, <- !app_assoc. reflexivity.
      * unfold bad_string_char. cbn [st_multiline andb negb]. lia.
      * cbn. unfold chDQ. lia.
      * unfold chBSL. lia.
Qed.

(** What the escape reader makes of the characters after \u or \U. *)
Definition uni_val (hs : str) : option char :=
  if match hs with a :: b :: _ => (lower_c a =? 100)%N && negb ((48 <=? b)%N && (b <=? 55)%N) | _ => false end then None
  else match py_int hs 16 with
       | Some z => if ((0 <=? z) && (z <=? 1114111))%Z then Some (Z.to_N z) else None
       | None => None
       end.
Lemma uni_val_ok hs x : uni_val hs = Some x -> uni_ok hs x.
Proof.
  unfold uni_val, uni_ok. intros H.
  destruct (match hs with a :: b :: _ => _ | _ => false end) eqn:E; [discriminate|].
  split; [destruct hs as [|? [|? ?]]; auto|].
  destruct (py_int hs 16) as [z|]; [|discriminate]. destruct ((0 <=? z) && (z <=? 1114111))%Z eqn:Ez; [|discriminate].
  exists z. split; [reflexivity|]. inversion H. split; [lia|reflexivity].
Qed.
Lemma loop_uni_bad d n v pre mk (long : bool) hs r :
  st_basic d = true -> List.length hs = (if long then 8 else 4) -> uni_val hs = None -> r <> [] ->
  exists l c st', string_loop (S n) d v true (mkSt pre ((if long then 85 else 117)%N :: hs ++ r) mk)
  = (Err (ParseErr KInvalidUnicode l c), st').
Proof.
  intros Hb Hl Hu0 Hr. cbn [string_loop]. unfold bind at 1, current at 1, cur; cbn [p_rest negb andb].
  rewrite Hb. cbn [andb].
  set (u := (if long then 85 else 117)%N).
  assert (Hws : is_ws u = false) by (destruct long; reflexivity).
  assert (Hev : escaped_value u = None) by (destruct long; reflexivity).
  assert (Hu : ((u =? 117) || (u =? 85))%N = true) by (destruct long; reflexivity).
  assert (Hu2 : (u =? 85)%N = long) by (destruct long; reflexivity).
  assert (Hne : hs ++ r <> []) by (destruct hs; [exact Hr|discriminate]).
  unfold bind at 1. unfold parse_escaped_char. unfold bind at 1, current at 1, cur; cbn [p_rest].
  rewrite Hws, andb_false_r, Hev, Hu, Hu2.
  assert (Hpk : peek_unicode long (mkSt pre (u :: hs ++ r) mk) = (Ok None, mkSt pre (u :: hs ++ r) mk)).
  { unfold peek_unicode, restoring_all. unfold bind at 1, current, cur; cbn [p_rest]. rewrite Hu. cbn [negb].
    unfold bind at 1. rewrite incM_st. unfold bind at 1, mark, set_mark. cbn [p_pre p_rest].
    unfold bind at 1. rewrite inc_nM_exact by auto. cbn [negb].
    unfold bind, extractM, extract. cbn [p_mark p_pre]. rewrite skipn_length_app.
    unfold uni_val in Hu0.
    destruct (match hs with a :: b :: _ => _ | _ => false end); [reflexivity|].
    destruct (py_int hs 16) as [z|]; [|reflexivity].
    destruct ((0 <=? z) && (z <=? 1114111))%Z; [discriminate|reflexivity]. }
  unfold bind at 1. rewrite Hpk. unfold raise, parse_error. destruct (to_linecol _ _) as [l c]. eauto.
Qed.

(** The whole token: text [a], the escape, text [b]. *)
Definition uni_tok (a : str) (long : bool) (hs b : str) : str :=
  [chDQ] ++ E1 a ++ [chBSL; (if long then 85 else 117)%N] ++ hs ++ E1 b ++ [chDQ].

Lemma E1_head_not_quote a x r : x <> chDQ -> exists y r', E1 a ++ x :: r = y :: r' /\ y <> chDQ.
Proof.
  intros Hx. destruct a as [|c s]; [exists x, r; auto|].
  pose proof (esc_ref_slb c s) as E. rewrite E. destruct (esc_char c) eqn:Ec.
  - pose proof (esc_char_reads c Ec) as Hrb. unfold reads_back in Hrb.
    destruct (esc_seq [c]) as [|b [|e hs]]; try discriminate.
    apply andb_true_iff in Hrb as [Hb _]. apply N.eqb_eq in Hb. subst b. cbn [app]. eexists _, _. split; [reflexivity|discriminate].
  - cbn [app]. eexists _, _. split; [reflexivity|]. unfold esc_char in Ec. lia.
Qed.
Lemma uni_open a (long : bool) hs b n pre mk tail : List.length (uni_tok a long hs b) <= n ->
  exists k, List.length (E1 b) + 2 <= k /\
  parse_string n SLB (mkSt pre (uni_tok a long hs b ++ tail) mk)
  = string_loop (S k) SLB a true (mkSt (pre ++ [chDQ] ++ E1 a ++ [chBSL]) ((if long then 85 else 117)%N :: hs ++ E1 b ++ chDQ :: tail) (List.length (pre ++ [chDQ]))).
Proof.
  intros Hn. unfold uni_tok in *. rewrite !app_length in Hn. cbn [List.length] in Hn.
  set (u := (if long then 85 else 117)%N) in *.
  replace (([chDQ] ++ E1 a ++ [chBSL; u] ++ hs ++ E1 b ++ [chDQ]) ++ tail)
    with (chDQ :: E1 a ++ (chBSL :: u :: hs ++ E1 b ++ chDQ :: tail)) by (generalize (E1 a) (E1 b); intros x y; repeat (cbn [app]; rewrite <- app_assoc); reflexivity).
  destruct (E1_head_not_quote a chBSL (u :: hs ++ E1 b ++ chDQ :: tail)) as (y & r' & E & Hy); [discriminate|].
  rewrite E. change chDQ with (st_unit SLB) at 1. rewrite open_single by auto. rewrite <- E. cbn [st_unit].
  destruct (slb_prefix a n [] (pre ++ [chDQ]) (List.length (pre ++ [chDQ])) (chBSL :: u :: hs ++ E1 b ++ chDQ :: tail)) as (k & Hk & Ek);
    [lia|discriminate|].
  rewrite Ek. destruct k as [|[|k]]; [lia|lia|]. exists k. split; [lia|].
  rewrite (loop_bsl SLB) by (auto; discriminate). cbn [app]. rewrite <- !app_assoc. reflexivity.
Qed.
Lemma uni_token_ok a (long : bool) hs b x : List.length hs = (if long then 8 else 4) -> uni_val hs = Some x ->
  reads_as (uni_tok a long hs b) (str_item (SStr SLB (a ++ [x] ++ b) (E1 a ++ [chBSL; (if long then 85 else 117)%N] ++ hs ++ E1 b))) (no_quote chDQ).
Proof.
  intros Hl Hv. apply (tok_of_string _ SLB); auto; [discriminate|].
  intros n pre mk tail Ht Hn0. assert (Hn : List.length (uni_tok a long hs b) <= n) by lia.
  destruct (uni_open a long hs b n pre mk tail Hn) as (k & Hk & E).
  assert (Hne : E1 b ++ chDQ :: tail <> []) by (destruct (E1 b); discriminate).
  rewrite E, (loop_uni SLB) with (x := x) by (auto; apply uni_val_ok; exact Hv).
  rewrite slb_body; [|lia|rewrite !app_length; lia].
  exists (List.length (pre ++ [chDQ])).
  replace ((pre ++ [chDQ] ++ E1 a ++ [chBSL]) ++ (if long then 85 else 117)%N :: hs)
    with ((pre ++ [chDQ]) ++ (E1 a ++ [chBSL; (if long then 85 else 117)%N] ++ hs))
    by (generalize (E1 a); intros y; repeat (cbn [app]; rewrite <- app_assoc); reflexivity).
  rewrite skipn_length_app. unfold uni_tok. generalize (E1 a) (E1 b); intros y z.
  repeat (cbn [app]; rewrite <- app_assoc). reflexivity.
Qed.
Lemma uni_token_bad a (long : bool) hs b : List.length hs = (if long then 8 else 4) -> uni_val hs = None ->
  exists l c, value_of (uni_tok a long hs b) = Err (ParseErr KInvalidUnicode l c).
Proof.
  intros Hl Hv. unfold value_of, start.
  assert (Hf : exists n, parse_fuel (uni_tok a long hs b) = S n /\ List.length (uni_tok a long hs b) <= n).
  { unfold parse_fuel. exists (4 * List.length (uni_tok a long hs b) + 15). lia. }
  destruct Hf as (n & -> & Hn).
  destruct (uni_open a long hs b n [] 0 [] Hn) as (k & Hk & E). rewrite app_nil_r in E.
  assert (Hne : E1 b ++ chDQ :: [] <> []) by (destruct (E1 b); discriminate).
  destruct (loop_uni_bad SLB k a ([] ++ [chDQ] ++ E1 a ++ [chBSL]) (List.length ([] ++ [chDQ])) long hs (E1 b ++ [chDQ]) eq_refl Hl Hv Hne)
    as (l & c & st' & E2).
  exists l, c. unfold bind at 1.
  change (uni_tok a long hs b) with (chDQ :: E1 a ++ [chBSL; (if long then 85 else 117)%N] ++ hs ++ E1 b ++ [chDQ]) at 1.
  rewrite parse_value_dq. unfold bind at 1, restore_on_err. cbn [List.length].
  change (chDQ :: E1 a ++ [chBSL; (if long then 85 else 117)%N] ++ hs ++ E1 b ++ [chDQ]) with (uni_tok a long hs b).
  rewrite E, E2. reflexivity.
Qed.

(** Hexadecimal digits. *)
Lemma hexval_16 c : is_digit_of 16 c = true -> (hexval c < 16)%N /\ digit_in 16 c = Some (hexval c) /\ (c =? chUND)%N = false
  /\ (c <? 127)%N = true /\ c_isspace c = false /\ c <> chPLUS /\ c <> chMINUS /\ c <> 120%N /\ c <> 88%N
  /\ ((lower_c c =? 100)%N = true <-> hexval c = 13%N) /\ (((48 <=? c)%N && (c <=? 55)%N) = true <-> (hexval c <= 7)%N).
Proof.
  unfold is_digit_of, is_ascii_digit. intros H. pose proof (digit_lower 16 c) as D. unfold is_digit_of, is_ascii_digit in D.
  destruct D as [_ D]; [unfold base_ok; tauto|exact H|].
  split; [lia|]. split; [exact D|].
  unfold chUND, c_isspace, chPLUS, chMINUS, lower_c, hexval, is_ascii_digit in *.
  repeat split; try lia; intros; repeat match goal with |- context [if ?b then _ else _] => destruct b eqn:? | H : context [if ?b then _ else _] |- _ => destruct b eqn:? end; lia.
Qed.
Lemma int_digits_hex s : dig 16 s -> forall acc b, (s = [] -> b = true) ->
  int_digits 16 s acc b = Some (fold_left (fun a c => (a * 16 + hexval c)%N) s acc).
Proof.
  induction s as [|c s IH]; intros Hs acc b Hne.
  - cbn. rewrite Hne by reflexivity. reflexivity.
  - inversion Hs as [|? ? Hc Hs']; subst. apply hexval_16 in Hc as (_ & E & Eu & _). cbn [int_digits fold_left].
    rewrite Eu, E. apply IH; auto.
Qed.
Lemma py_int_hex s : dig 16 s -> s <> [] -> py_int s 16 = Some (Z.of_N (positional 16 s)).
Proof.
  intros Hs Hne. change s with ([] ++ s) at 1. apply py_int_gen; [unfold base_ok; tauto|constructor|exact Hne| | | |].
  - eapply Forall_impl; [|exact Hs]. intros c Hc. apply hexval_16 in Hc. tauto.
  - eapply Forall_impl; [|exact Hs]. intros c Hc. apply hexval_16 in Hc. tauto.
  - intros _. destruct s as [|c s]; [congruence|]. inversion Hs as [|? ? Hc Hs']; subst. apply hexval_16 in Hc. cbn [hd]. tauto.
  - unfold positional. rewrite <- int_digits_hex with (b := false); [|exact Hs|congruence].
    destruct s as [|z [|p r]]; [reflexivity|reflexivity|]. cbn [int_unsigned].
    inversion Hs as [|? ? _ Hs']; subst. inversion Hs' as [|? ? Hp _]; subst. apply hexval_16 in Hp.
    assert (F1 : (p =? 120)%N = false) by (apply N.eqb_neq; tauto).
    assert (F2 : (p =? 88)%N = false) by (apply N.eqb_neq; tauto).
    rewrite F1, F2. change (16 =? 8)%N with false. change (16 =? 2)%N with false. cbn [andb orb]. rewrite !andb_false_r. reflexivity.
Qed.

(** A Unicode scalar value / a surrogate. *)
Definition surrogate (v : N) : Prop := (55296 <= v <= 57343)%N.
Lemma uni_val_short hs : dig 16 hs -> List.length hs = 4 ->
  (surrogate (positional 16 hs) /\ uni_val hs = None) \/ (~ surrogate (positional 16 hs) /\ uni_val hs = Some (positional 16 hs)).
Proof.
  intros Hs Hl. destruct hs as [|a [|b [|c [|d [|e r]]]]]; try discriminate Hl.
  pose proof (py_int_hex _ Hs ltac:(discriminate)) as P.
  unfold uni_val. rewrite P. unfold surrogate. clear P.
  unfold dig in Hs. rewrite Forall_forall in Hs.
  assert (M : forall x, In x [a;b;c;d] -> (hexval x < 16)%N) by (intros x Hx; apply Hs, hexval_16 in Hx; tauto).
  pose proof (M a ltac:(simpl; tauto)) as Ma. pose proof (M b ltac:(simpl; tauto)) as Mb.
  pose proof (M c ltac:(simpl; tauto)) as Mc. pose proof (M d ltac:(simpl; tauto)) as Md.
  assert (Ia : (lower_c a =? 100)%N = true <-> hexval a = 13%N) by (apply hexval_16; apply Hs; simpl; tauto).
  assert (Ib : ((48 <=? b)%N && (b <=? 55)%N) = true <-> (hexval b <= 7)%N) by (apply hexval_16; apply Hs; simpl; tauto).
  clear Hs M. unfold positional. cbn [fold_left].
  set (v := ((((0 * 16 + hexval a) * 16 + hexval b) * 16 + hexval c) * 16 + hexval d)%N) in *.
  assert (Hlt : (v < 65536)%N) by lia.
  assert (Hz : (0 <=? Z.of_N v)%Z && (Z.of_N v <=? 1114111)%Z = true) by (clear - Hlt; lia).
  assert (Hn : Z.to_N (Z.of_N v) = v) by (clear; lia).
  destruct (lower_c a =? 100)%N eqn:E1; [destruct ((48 <=? b)%N && (b <=? 55)%N) eqn:E2|]; cbn [andb negb].
  - right. rewrite Hz, Hn. split; [|reflexivity].
    assert (hexval a = 13%N) by (apply Ia; reflexivity). assert (hexval b <= 7)%N by (apply Ib; reflexivity). clear - H H0 v Mc Md. lia.
  - left. split; [|reflexivity].
    assert (hexval a = 13%N) by (apply Ia; reflexivity). assert (7 < hexval b)%N by (apply N.nle_gt; intros F; apply Ib in F; congruence).
    clear - H H0 v Mb Mc Md. lia.
  - right. rewrite Hz, Hn. split; [|reflexivity].
    assert (hexval a <> 13%N) by (intros F; apply Ia in F; congruence). clear - H v Ma Mb Mc Md. lia.
Qed.
Lemma uni_val_long hs : dig 16 hs -> List.length hs = 8 ->
  ((1114111 < positional 16 hs)%N /\ uni_val hs = None) \/ ((positional 16 hs <= 1114111)%N /\ uni_val hs = Some (positional 16 hs)).
Proof.
  intros Hs Hl. destruct hs as [|a [|b [|c [|d [|e [|f [|g [|h [|i r]]]]]]]]]; try discriminate Hl.
  pose proof (py_int_hex _ Hs ltac:(discriminate)) as P.
  unfold uni_val. rewrite P. clear P.
  unfold dig in Hs. rewrite Forall_forall in Hs.
  assert (Ia : (lower_c a =? 100)%N = true <-> hexval a = 13%N) by (apply hexval_16; apply Hs; simpl; tauto).
  clear Hs Hl.
  set (v := positional 16 [a; b; c; d; e; f; g; h]).
  assert (Hv : (hexval a * 268435456 <= v)%N).
  { unfold v, positional. cbn [fold_left]. clear. lia. }
  assert (Hn : Z.to_N (Z.of_N v) = v) by (clear; lia).
  assert (D : (1114111 < v)%N \/ (v <= 1114111)%N) by (clear; lia).
  destruct D as [D|D].
  - assert (Hz : (0 <=? Z.of_N v)%Z && (Z.of_N v <=? 1114111)%Z = false) by (clear - D; lia).
    left. split; [exact D|]. rewrite Hz. match goal with |- (if ?b then _ else _) = _ => destruct b end; reflexivity.
  - assert (Hz : (0 <=? Z.of_N v)%Z && (Z.of_N v <=? 1114111)%Z = true) by (clear - D; lia).
    right. split; [exact D|]. rewrite Hz, Hn.
    destruct (lower_c a =? 100)%N eqn:E1; [|reflexivity].
    exfalso. assert (hexval a = 13%N) by (apply Ia; reflexivity). clear - H Hv D. lia.
Qed.

(** Characters that can occur in no text accepted by [int(_, 16)]. *)
Definition never_hex (c : char) : Prop :=
  (c < 127)%N /\ is_digit_of 16 c = false /\ c_isspace c = false /\ ~ In c [chUND; chPLUS; chMINUS; 120%N; 88%N].
Lemma never_hex_digit c : never_hex c -> digit_in 16 c = None /\ to_ascii c = c.
Proof.
  unfold never_hex, is_digit_of, is_ascii_digit, digit_in, digit_val, to_ascii, hexval, is_ascii_digit. cbn [In]. intros (H1 & H2 & H3 & H4).
  split; [|replace (c <? 127)%N with true by lia; reflexivity].
  repeat match goal with |- context [if ?b then _ else _] => destruct b eqn:? | H : context [if ?b then _ else _] |- _ => destruct b eqn:? end; try reflexivity; lia.
Qed.
Lemma int_digits_never s c : In c s -> never_hex c -> forall acc b, int_digits 16 s acc b = None.
Proof.
  intros Hin Hc. destruct (never_hex_digit c Hc) as [Hd _].
  assert (Hu : (c =? chUND)%N = false) by (apply N.eqb_neq; intros ->; destruct Hc as (_ & _ & _ & F); apply F; simpl; auto).
  induction s as [|x s IH]; [contradiction|]. intros acc b. cbn [int_digits].
  destruct Hin as [->|Hin]; [rewrite Hu, Hd; reflexivity|].
  destruct (x =? chUND)%N; [destruct b; auto|]. destruct (digit_in 16 x); auto.
Qed.
Lemma int_unsigned_never s c : In c s -> never_hex c -> int_unsigned 16 s = None.
Proof.
  intros Hin Hc. pose proof (fun s H => int_digits_never s c H Hc) as D.
  destruct s as [|z [|p r]]; [contradiction|apply D; exact Hin|]. cbn [int_unsigned].
  match goal with |- (if ?b then _ else _) = _ => destruct b eqn:E end; [|apply D; exact Hin].
  apply D. apply andb_true_iff in E as [E1 E2]. apply N.eqb_eq in E1. subst z.
  destruct Hc as (_ & Hdg & _ & Hnot). cbn [In] in Hnot.
  destruct Hin as [<-|[<-|Hin]].
  - exfalso. vm_compute in Hdg. discriminate.
  - exfalso. change (16 =? 8)%N with false in E2. change (16 =? 2)%N with false in E2. cbn [andb orb] in E2.
    rewrite !orb_false_r, N.eqb_refl in E2. cbn [andb] in E2. lia.
  - destruct r as [|y r]; [contradiction|]. destruct (N.eqb_spec y chUND) as [->|]; [|exact Hin].
    destruct Hin as [<-|Hin]; [exfalso; apply Hnot; auto|exact Hin].
Qed.
Lemma in_strip p s c : In c s -> p c = false -> In c (rstrip_p p (lstrip_p p s)).
Proof.
  assert (D : forall s, In c s -> p c = false -> In c (drop_while p s)).
  { induction s0 as [|x s0 IH]; intros H Hp; [contradiction|]. cbn [drop_while]. destruct (p x) eqn:E; [|exact H].
    destruct H as [->|H]; [congruence|auto]. }
  intros H Hp. unfold rstrip_p, lstrip_p. apply -> in_rev. apply D; [|exact Hp]. apply -> in_rev. apply D; auto.
Qed.
Lemma uni_val_never hs c : In c hs -> never_hex c -> uni_val hs = None.
Proof.
  intros Hin Hc. unfold uni_val. destruct (match hs with a :: b :: _ => _ | _ => false end); [reflexivity|].
  assert (E : py_int hs 16 = None); [|rewrite E; reflexivity].
  unfold py_int.
  assert (H : In c (rstrip_p c_isspace (lstrip_p c_isspace (map to_ascii hs)))).
  { apply in_strip; [|apply Hc]. destruct (never_hex_digit c Hc) as [_ E]. rewrite <- E. apply in_map. exact Hin. }
  destruct (rstrip_p c_isspace (lstrip_p c_isspace (map to_ascii hs))) as [|x r]; [reflexivity|].
  assert (T : In c r \/ (c = x /\ (x =? chMINUS)%N = false /\ (x =? chPLUS)%N = false)).
  { destruct H as [->|H]; [|auto]. right. split; [reflexivity|]. destruct Hc as (_ & _ & _ & F). cbn [In] in F.
    split; apply N.eqb_neq; intros ->; apply F; auto 6. }
  destruct (x =? chMINUS)%N eqn:E1; [|destruct (x =? chPLUS)%N eqn:E2].
  - destruct T as [T|(_ & T & _)]; [|congruence]. rewrite (int_unsigned_never r c) by auto. reflexivity.
  - destruct T as [T|(_ & _ & T)]; [|congruence]. rewrite (int_unsigned_never r c) by auto. reflexivity.
  - rewrite (int_unsigned_never (x :: r) c) by auto. reflexivity.
Qed.
