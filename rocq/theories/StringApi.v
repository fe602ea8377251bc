(** StringApi: string tokens through the public API (C05-C08). *)
From Verif Require Import Base Source Utils Items Container Arrays Parser Api Lemmas Escape Strings StringRT.
From Coq Require Import ZifyBool ZifyNat ZifyN Permutation.
Open Scope nat_scope.

(** [parse_value] on a quote dispatches to the string reader. *)
Lemma parse_value_dq strict n pre r mk :
  parse_value strict (S n) (mkSt pre (chDQ :: r) mk) =
  bind (restore_on_err (parse_string n SLB)) (fun v => ret (str_item v)) (mkSt pre (chDQ :: r) (List.length pre)).
Proof. reflexivity. Qed.
Lemma parse_value_sq strict n pre r mk :
  parse_value strict (S n) (mkSt pre (chSQ :: r) mk) =
  bind (restore_on_err (parse_string n SLL)) (fun v => ret (str_item v)) (mkSt pre (chSQ :: r) (List.length pre)).
Proof. reflexivity. Qed.

(** Reading a token [w] of value [it] in any context: it consumes exactly [w]. *)
Definition reads_as (w : str) (it : item) (okt : str -> Prop) : Prop :=
  forall strict n pre mk tail, okt tail -> List.length w < n ->
    exists mk', parse_value strict n (mkSt pre (w ++ tail) mk) = (Ok it, mkSt (pre ++ w) tail mk').

Lemma tok_of_string w q0 t s o (okt : str -> Prop) :
  (q0 = SLB \/ q0 = SLL) -> hd 0%N w = st_unit q0 -> w <> [] ->
  (forall n pre mk tail, okt tail -> List.length w < S n ->
     exists mk', parse_string n q0 (mkSt pre (w ++ tail) mk) = (Ok (SStr t s o), mkSt (pre ++ w) tail mk')) ->
  reads_as w (str_item (SStr t s o)) okt.
Proof.
  intros Hq0 Hhd Hne H strict n pre mk tail Ht Hn. destruct n as [|n]; [lia|].
  destruct w as [|c w]; [congruence|]. simpl in Hhd. subst c.
  destruct (H n pre (List.length pre) tail Ht Hn) as [mk' E]. exists mk'.
  destruct Hq0; subst q0; cbn [st_unit app] in *.
  - rewrite parse_value_dq. unfold bind, restore_on_err. rewrite E. reflexivity.
  - rewrite parse_value_sq. unfold bind, restore_on_err. rewrite E. reflexivity.
Qed.

Definition tail_ok (u : char) : str -> Prop := no_quote u.

Lemma esc_slb v : escape_string (escaped_sequences SLB) v = E1 v.
Proof. apply escape_string_ref, wf_escaped. Qed.
Lemma esc_mlb v : escape_string (escaped_sequences MLB) v = E2 v.
Proof. apply escape_string_ref, wf_escaped. Qed.

Lemma reads_slb v : reads_as ([chDQ] ++ E1 v ++ [chDQ]) (str_item (SStr SLB v (E1 v))) (no_quote chDQ).
Proof.
  apply (tok_of_string _ SLB); auto; [discriminate|].
  intros n pre mk tail Ht Hn. rewrite !app_length in Hn. cbn [List.length q3] in Hn.
  destruct (slb_token v n pre mk tail) as [mk' E]; [lia|exact Ht|]. exists mk'.
  rewrite <- !app_assoc. exact E.
Qed.
Lemma reads_mlb v : no_first_newline v -> reads_as (q3 ++ E2 v ++ q3) (str_item (SStr MLB v (E2 v))) (no_quote chDQ).
Proof.
  intros Hv. apply (tok_of_string _ SLB); auto; [discriminate|].
  intros n pre mk tail Ht Hn. rewrite !app_length in Hn. cbn [List.length q3] in Hn.
  destruct (mlb_token v n pre mk tail) as [mk' E]; [exact Hv|lia|exact Ht|]. exists mk'.
  rewrite <- !app_assoc. exact E.
Qed.
Lemma reads_sll v : valid_lit SLL v -> reads_as ([chSQ] ++ v ++ [chSQ]) (str_item (SStr SLL v v)) (no_quote chSQ).
Proof.
  intros Hv. apply (tok_of_string _ SLL); auto; [discriminate|].
  intros n pre mk tail Ht Hn. rewrite !app_length in Hn. cbn [List.length q3] in Hn.
  destruct (sll_token v n pre mk tail) as [mk' E]; [exact Hv|lia|exact Ht|]. exists mk'.
  rewrite <- !app_assoc. exact E.
Qed.
Lemma reads_mll v : valid_lit MLL v -> no_first_newline v ->
  reads_as ([chSQ; chSQ; chSQ] ++ v ++ [chSQ; chSQ; chSQ]) (str_item (SStr MLL v v)) (no_quote chSQ).
Proof.
  intros Hv Hn0. apply (tok_of_string _ SLL); auto; [discriminate|].
  intros n pre mk tail Ht Hn. rewrite !app_length in Hn. cbn [List.length q3] in Hn.
  destruct (mll_token v n pre mk tail) as [mk' E]; [exact Hv|exact Hn0|lia|exact Ht|]. exists mk'.
  rewrite <- !app_assoc. exact E.
Qed.

Lemma reads_value_of w it (okt : str -> Prop) : okt [] -> reads_as w it okt -> value_of w = Ok it.
Proof.
  intros Ht H. unfold value_of. unfold start.
  destruct (H false (parse_fuel w) [] 0 [] Ht) as [mk' E]; [unfold parse_fuel; lia|].
  rewrite app_nil_r in E. unfold bind at 1. rewrite E. reflexivity.
Qed.

Lemma from_raw_basic v t : st_basic t = true ->
  string_from_raw v t = Ok (SStr t v (escape_string (escaped_sequences t) v)).
Proof.
  intros H. unfold string_from_raw.
  assert (Hne : escaped_sequences t <> []).
  { intros E. assert (E2 : List.length (escaped_sequences t) = 0) by (rewrite E; reflexivity).
    destruct t; try discriminate; vm_compute in E2; discriminate. }
  replace (invalid_sequences t) with (@nil str) by (destruct t; try discriminate; reflexivity).
  cbn [existsb]. destruct (escaped_sequences t) eqn:E; [congruence|]. reflexivity.
Qed.

(** ** The API statements *)
Definition parses_back (it : item) (okt : str -> Prop) : Prop :=
  value_of (item_string it) = Ok it /\ reads_as (item_string it) it okt.

Lemma api_slb v : exists it, api_string v false false = Ok it /\ str_value it = Some v /\ parses_back it (no_quote chDQ).
Proof.
  exists (str_item (SStr SLB v (E1 v))). split; [|split; [reflexivity|]].
  - unfold api_string. cbn [st_select]. rewrite from_raw_basic by reflexivity. rewrite esc_slb. reflexivity.
  - split; [eapply reads_value_of; [|apply reads_slb]; exact I|apply reads_slb].
Qed.
Lemma api_mlb v : no_first_newline v ->
  exists it, api_string v false true = Ok it /\ str_value it = Some v /\ parses_back it (no_quote chDQ).
Proof.
  intros Hv. exists (str_item (SStr MLB v (E2 v))). split; [|split; [reflexivity|]].
  - unfold api_string. cbn [st_select]. rewrite from_raw_basic by reflexivity. rewrite esc_mlb. reflexivity.
  - split; [eapply reads_value_of; [|apply reads_mlb]; [exact I|exact Hv]|apply reads_mlb; exact Hv].
Qed.
Lemma api_lit v m it : api_string v true m = Ok it -> (m = true -> no_first_newline v) ->
  str_value it = Some v /\ parses_back it (no_quote chSQ).
Proof.
  unfold api_string, string_from_raw. intros H Hv.
  destruct m; cbn [st_select] in H.
  - destruct (existsb _ (invalid_sequences MLL)) eqn:E; [discriminate|].
    inversion H; subst. split; [reflexivity|].
    assert (R : reads_as ([chSQ; chSQ; chSQ] ++ v ++ [chSQ; chSQ; chSQ]) (str_item (SStr MLL v v)) (no_quote chSQ))
      by (apply reads_mll; auto).
    split; [eapply reads_value_of; [|exact R]; exact I|exact R].
  - destruct (existsb _ (invalid_sequences SLL)) eqn:E; [discriminate|].
    inversion H; subst. split; [reflexivity|].
    assert (R : reads_as ([chSQ] ++ v ++ [chSQ]) (str_item (SStr SLL v v)) (no_quote chSQ))
      by (apply reads_sll; auto).
    split; [eapply reads_value_of; [|exact R]; exact I|exact R].
Qed.
Lemma api_lit_err v m e : api_string v true m = Err e -> e = InvalidStringE.
Proof.
  unfold api_string, string_from_raw. destruct m; cbn [st_select];
  destruct (existsb _ _); cbn; intros H; congruence.
Qed.

(** ** Cleanliness of the escaped text *)
(** The text between the quotes of a basic string as TOML defines it: a backslash
    protects the next character; otherwise no quote and no control character but
    those in [allowed]. *)
Fixpoint clean (allowed : char -> bool) (s : str) : bool :=
  match s with
  | [] => true
  | c :: s' =>
      if (c =? chBSL)%N then match s' with [] => false | c2 :: s2 => negb (is_control c2) && clean allowed s2 end
      else negb (c =? chDQ)%N && (negb (is_control c) || allowed c) && clean allowed s'
  end.
Lemma clean_esc_seq : forallb (fun c => clean (fun _ => false) (esc_seq [c])) (92 :: 34 :: 127 :: map N.of_nat (seq 0 32))%N = true.
Proof. vm_compute. reflexivity. Qed.
Lemma clean_app_fuel a n : forall x y, List.length x <= n -> clean a x = true -> clean a y = true -> clean a (x ++ y) = true.
Proof.
  induction n as [|n IH]; intros x y Hl Hx Hy; destruct x as [|c x]; try exact Hy; simpl in Hl; try lia.
  cbn [clean app] in *. destruct (c =? chBSL)%N.
  - destruct x as [|c2 x]; [discriminate|]. cbn [app]. apply andb_true_iff in Hx as [H1 H2].
    rewrite H1. apply IH; auto. simpl in Hl. lia.
  - apply andb_true_iff in Hx as [H1 H2]. rewrite H1. apply IH; auto. lia.
Qed.
Lemma esc_char_in c : esc_char c = true -> In c (92 :: 34 :: 127 :: map N.of_nat (seq 0 32))%N.
Proof.
  unfold esc_char, is_control, chBSL, chDQ. intros H.
  destruct (N.eqb_spec c 92); [subst; simpl; auto|].
  destruct (N.eqb_spec c 34); [subst; simpl; auto|].
  destruct (N.eqb_spec c 127); [subst; simpl; auto|].
  right. right. right. apply in_map_iff. exists (N.to_nat c). split; [lia|]. apply in_seq. lia.
Qed.
Lemma clean_slb v : clean (fun _ => false) (E1 v) = true.
Proof.
  induction v as [|c v IH]; [reflexivity|]. rewrite esc_ref_slb.
  apply clean_app_fuel with (n := List.length (if esc_char c then esc_seq [c] else [c])); auto.
  destruct (esc_char c) eqn:E.
  - pose proof clean_esc_seq as A. rewrite forallb_forall in A. apply A. apply esc_char_in. exact E.
  - unfold esc_char in E. cbn [clean].
    destruct (N.eqb_spec c chBSL); [subst; discriminate|]. destruct (N.eqb_spec c chDQ); [subst; discriminate|].
    destruct (is_control c); [discriminate|]. reflexivity.
Qed.

(** Multi-line: quotes are allowed singly or in pairs, never three in a row. *)
Fixpoint clean_ml (run : nat) (s : str) : bool :=
  match s with
  | [] => true
  | c :: s' =>
      if (c =? chBSL)%N then match s' with [] => false | c2 :: s2 => negb (is_control c2) && clean_ml 0 s2 end
      else if (c =? chDQ)%N then Nat.ltb run 2 && clean_ml (S run) s'
      else (negb (is_control c) || is_nl c) && clean_ml 0 s'
  end.
Lemma clean_ml_esc_seq : forallb (fun c => clean_ml 2 (esc_seq [c])) (92 :: 127 :: map N.of_nat (seq 0 32))%N = true.
Proof. vm_compute. reflexivity. Qed.
Lemma clean_ml_mono n : forall s r r', List.length s <= n -> r' <= r -> clean_ml r s = true -> clean_ml r' s = true.
Proof.
  induction n as [|n IH]; intros s r r' Hl Hr H; destruct s as [|c s]; try reflexivity; simpl in Hl; try lia.
  cbn [clean_ml] in *. destruct (c =? chBSL)%N; [exact H|]. destruct (c =? chDQ)%N; [|exact H].
  apply andb_true_iff in H as [H1 H2]. apply andb_true_iff. split; [lia|].
  eapply IH with (r := S r); [lia|lia|exact H2].
Qed.
(** appending after a text that does not end in an open quote run *)
Lemma clean_ml_app n : forall x y r, List.length x <= n -> clean_ml r x = true ->
  (forall k, k <= 2 -> clean_ml k y = true) -> (r <= 2)%nat -> clean_ml r (x ++ y) = true.
Proof.
  induction n as [|n IH]; intros x y r Hl Hx Hy Hr; destruct x as [|c x]; try (apply Hy; exact Hr); simpl in Hl; try lia.
  cbn [clean_ml app] in *. destruct (c =? chBSL)%N.
  - destruct x as [|c2 x]; [discriminate|]. cbn [app]. apply andb_true_iff in Hx as [H1 H2].
    rewrite H1. apply IH; auto; simpl in Hl; lia.
  - destruct (c =? chDQ)%N.
    + apply andb_true_iff in Hx as [H1 H2]. rewrite H1. apply IH; auto; lia.
    + apply andb_true_iff in Hx as [H1 H2]. rewrite H1. apply IH; auto; lia.
Qed.

Lemma mesc_in c : mesc_char c = true -> In c (92 :: 127 :: map N.of_nat (seq 0 32))%N.
Proof.
  unfold mesc_char, is_control, chBSL. intros H.
  destruct (N.eqb_spec c 92); [subst; simpl; auto|].
  destruct (N.eqb_spec c 127); [subst; simpl; auto|].
  right. right. apply in_map_iff. exists (N.to_nat c). split; [lia|]. apply in_seq. lia.
Qed.
Lemma clean_ml_q3 r : clean_ml 0 ([chDQ; chDQ; chBSL; chDQ] ++ r) = clean_ml 0 r.
Proof. reflexivity. Qed.
Lemma clean_mlb n : forall v, List.length v <= n ->
  clean_ml 0 (E2 v) = true /\
  (no_quote chDQ v -> forall k, k <= 2 -> clean_ml k (E2 v) = true).
Proof.
  induction n as [|n IH]; intros v Hl.
  { destruct v; [|simpl in Hl; lia]. split; reflexivity. }
  destruct v as [|c v]; [split; reflexivity|]. simpl in Hl.
  assert (Hother : c <> chDQ -> forall k, k <= 2 -> clean_ml k (E2 (c :: v)) = true).
  { intros Hc k Hk.
    assert (Hq : startswith q3 (c :: v) = false) by (simpl; apply N.eqb_neq in Hc; rewrite N.eqb_sym, Hc; reflexivity).
    rewrite (esc_ref_mlb_plain c v Hq). destruct (IH v) as [I0 I1]; [lia|].
    destruct (mesc_char c) eqn:Ec.
    - (* an escape ends the run *)
      assert (Hrb : reads_back c = true) by (apply esc_char_reads; unfold mesc_char in Ec; unfold esc_char; lia).
      assert (Hesc : clean_ml 2 (esc_seq [c]) = true).
      { pose proof clean_ml_esc_seq as A. rewrite forallb_forall in A. apply A, mesc_in, Ec. }
      destruct (esc_seq [c]) as [|b [|e hs]] eqn:Eq; try (unfold reads_back in Hrb; rewrite Eq in Hrb; discriminate).
      assert (Hno : forall x, In x hs -> (x =? chBSL)%N = false /\ (x =? chDQ)%N = false /\ is_control x = false).
      { pose proof (forallb_forall (fun c => match esc_seq [c] with _ :: _ :: hs => forallb (fun x => negb (x =? chBSL)%N && negb (x =? chDQ)%N && negb (is_control x)) hs | _ => true end) (92 :: 127 :: map N.of_nat (seq 0 32))%N) as [A _].
        assert (A' : forallb (fun c => match esc_seq [c] with _ :: _ :: hs => forallb (fun x => negb (x =? chBSL)%N && negb (x =? chDQ)%N && negb (is_control x)) hs | _ => true end) (92 :: 127 :: map N.of_nat (seq 0 32))%N = true) by (vm_compute; reflexivity).
        specialize (A A' c (mesc_in c Ec)). rewrite Eq in A. rewrite forallb_forall in A.
        intros x Hx. specialize (A x Hx). lia. }
      unfold reads_back in Hrb; rewrite Eq in Hrb. apply andb_true_iff in Hrb as [Hb _]. apply N.eqb_eq in Hb. subst b.
      cbn [clean_ml app] in *. rewrite N.eqb_refl in *. apply andb_true_iff in Hesc as [He _]. rewrite He. cbn [andb].
      clear - Hno I0. induction hs as [|x hs IHh]; [exact I0|].
      cbn [app clean_ml]. destruct (Hno x (or_introl eq_refl)) as (A & B & C). rewrite A, B, C. cbn [negb orb andb].
      apply IHh. intros y Hy. apply Hno. right. exact Hy.
    - cbn [app clean_ml]. unfold mesc_char in Ec.
      destruct (N.eqb_spec c chBSL); [subst; discriminate|]. apply N.eqb_neq in Hc. rewrite Hc.
      destruct (is_control c), (is_nl c); try discriminate; exact I0. }
  split; [|intros Hq; apply Hother; exact Hq].
  destruct (N.eq_dec c chDQ) as [->|Hc]; [|apply Hother; [exact Hc|lia]].
  destruct (startswith q3 (chDQ :: v)) eqn:Eq.
  - apply startswith_spec in Eq as [r Hr]. change (q3 ++ r) with (chDQ :: chDQ :: chDQ :: r) in Hr.
    rewrite Hr, esc_ref_mlb_q3, clean_ml_q3. inversion Hr; subst v. simpl in Hl. destruct (IH r) as [I0 _]; [lia|exact I0].
  - rewrite (esc_ref_mlb_plain _ _ Eq). change (mesc_char chDQ) with false. cbn [app clean_ml].
    change (chDQ =? chBSL)%N with false. rewrite N.eqb_refl. cbn [Nat.ltb Nat.leb andb].
    destruct v as [|c2 v]; [reflexivity|].
    destruct (N.eq_dec c2 chDQ) as [->|Hc2].
    + assert (Eq2 : startswith q3 (chDQ :: v) = false).
      { destruct (startswith q3 (chDQ :: v)) eqn:E; [|reflexivity].
        apply startswith_spec in E as [r Hr]. change (q3 ++ r) with (chDQ :: chDQ :: chDQ :: r) in Hr. inversion Hr; subst v.
        discriminate. }
      rewrite (esc_ref_mlb_plain _ _ Eq2). change (mesc_char chDQ) with false. cbn [app clean_ml].
      change (chDQ =? chBSL)%N with false. rewrite N.eqb_refl. cbn [Nat.ltb Nat.leb andb].
      destruct (IH v) as [_ I1]; [simpl in Hl; lia|]. apply I1; [|lia].
      destruct v as [|c3 v]; [exact I|]. intros ->. discriminate Eq.
    + destruct (IH (c2 :: v)) as [_ I1]; [simpl in *; lia|]. apply I1; [exact Hc2|lia].
Qed.

Lemma escape_clean_slb order v : Permutation order (escaped_sequences SLB) ->
  escape_string order v = escape_string (escaped_sequences SLB) v /\ clean (fun _ => false) (escape_string order v) = true.
Proof.
  intros P. assert (E : escape_string order v = escape_string (escaped_sequences SLB) v).
  { symmetry. apply escape_string_perm; [apply wf_escaped|symmetry; exact P]. }
  split; [exact E|]. rewrite E, esc_slb. apply clean_slb.
Qed.
Lemma escape_clean_mlb order v : Permutation order (escaped_sequences MLB) ->
  escape_string order v = escape_string (escaped_sequences MLB) v /\ clean_ml 0 (escape_string order v) = true.
Proof.
  intros P. assert (E : escape_string order v = escape_string (escaped_sequences MLB) v).
  { symmetry. apply escape_string_perm; [apply wf_escaped|symmetry; exact P]. }
  split; [exact E|]. rewrite E, esc_mlb. exact (proj1 (clean_mlb (List.length v) v (Nat.le_refl _))).
Qed.

Lemma from_raw_lit v t s : st_basic t = false -> string_from_raw v t = Ok s -> s = SStr t v v.
Proof.
  intros Ht. unfold string_from_raw. destruct (existsb _ _); [discriminate|].
  replace (escaped_sequences t) with (@nil str) by (destruct t; try discriminate; reflexivity).
  intros E. inversion E. reflexivity.
Qed.
Lemma api_lit_text v m it : api_string v true m = Ok it ->
  item_string it = st_value (st_select true m) ++ v ++ st_value (st_select true m).
Proof.
  unfold api_string. intros E. apply rbind_inv in E as (s & E1 & E2). apply from_raw_lit in E1; [|destruct m; reflexivity].
  inversion E2; subst. reflexivity.
Qed.
Lemma api_sll v : api_string v true false = Err InvalidStringE \/
  exists it, api_string v true false = Ok it /\ str_value it = Some v
    /\ item_string it = [chSQ] ++ v ++ [chSQ]
    /\ value_of (item_string it) = Ok it /\ reads_as (item_string it) it (no_quote chSQ).
Proof.
  destruct (api_string v true false) as [it|e] eqn:E.
  - right. exists it. split; [reflexivity|].
    destruct (api_lit v false it E) as [H1 [H2 H3]]; [discriminate|]. split; [exact H1|]. split; [|split; assumption].
    exact (api_lit_text v _ it E).
  - left. f_equal. eapply api_lit_err; eauto.
Qed.
Lemma api_mll v : no_first_newline v -> api_string v true true = Err InvalidStringE \/
  exists it, api_string v true true = Ok it /\ str_value it = Some v
    /\ item_string it = [chSQ; chSQ; chSQ] ++ v ++ [chSQ; chSQ; chSQ]
    /\ value_of (item_string it) = Ok it /\ reads_as (item_string it) it (no_quote chSQ).
Proof.
  intros Hn. destruct (api_string v true true) as [it|e] eqn:E.
  - right. exists it. split; [reflexivity|].
    destruct (api_lit v true it E) as [H1 [H2 H3]]; [intros _; exact Hn|]. split; [exact H1|]. split; [|split; assumption].
    exact (api_lit_text v _ it E).
  - left. f_equal. eapply api_lit_err; eauto.
Qed.
Lemma from_raw_lit_err v m :
  api_string v true m = Err InvalidStringE
  <-> exists q, In q (invalid_sequences (st_select true m)) /\ substr q v = true.
Proof.
  unfold api_string, string_from_raw. generalize (escaped_sequences (st_select true m)); intros esc.
  destruct (existsb _ (invalid_sequences (st_select true m))) eqn:E.
  - split; [intros _|reflexivity]. apply existsb_exists in E. exact E.
  - split; [discriminate|]. intros (q & Hq & Hs).
    rewrite (invalid_none _ v E q Hq) in Hs. discriminate.
Qed.
Lemma inv_sll q : In q (invalid_sequences SLL) <-> exists c, q = [c] /\ ((is_control c = true /\ c <> chTAB) \/ c = chSQ).
Proof.
  unfold invalid_sequences. rewrite in_app_iff. split.
  - intros [Hq|[<-|[]]]; [|eauto].
    pose proof Hq as Hq'. apply in_list_minus in Hq' as [Hc _]. apply control_single in Hc as [c ->].
    apply in_forbidden in Hq. eauto.
  - intros (c & -> & H). destruct H as [H| ->]; [left; apply in_forbidden; exact H|right; left; reflexivity].
Qed.
Lemma inv_mll q : In q (invalid_sequences MLL) <->
  (exists c, q = [c] /\ is_control c = true /\ c <> chTAB /\ c <> chLF /\ c <> chCR) \/ q = [chSQ; chSQ; chSQ].
Proof.
  unfold invalid_sequences. rewrite in_list_minus, in_app_iff. split.
  - intros [[Hq|[<-|[]]] Hn]; [|auto].
    left. pose proof Hq as Hq'. apply in_list_minus in Hq' as [Hc _]. apply control_single in Hc as [c ->].
    apply in_forbidden in Hq as [H1 H2].
    exists c. repeat split; auto; intros ->; apply Hn; simpl; auto.
  - intros [(c & -> & H1 & H2 & H3 & H4)| ->].
    + split; [left; apply in_forbidden; auto|]. intros [E|[E|[]]]; inversion E; congruence.
    + split; [right; left; reflexivity|]. intros [E|[E|[]]]; inversion E.
Qed.
Lemma api_lit_refusals v :
  (api_string v true false = Err InvalidStringE <->
     exists c, In c v /\ ((is_control c = true /\ c <> chTAB) \/ c = chSQ)) /\
  (api_string v true true = Err InvalidStringE <->
     (exists c, In c v /\ is_control c = true /\ c <> chTAB /\ c <> chLF /\ c <> chCR)
     \/ exists a b, v = a ++ [chSQ; chSQ; chSQ] ++ b).
Proof.
  split; (etransitivity; [apply from_raw_lit_err|]); split.
  - intros (q & Hq & Hs). apply inv_sll in Hq as (c & -> & H). rewrite substr_single in Hs. apply inb_In in Hs. eauto.
  - intros (c & Hc & H). exists [c]. split; [apply inv_sll; eauto|]. rewrite substr_single. apply inb_In; exact Hc.
  - intros (q & Hq & Hs). apply inv_mll in Hq as [(c & -> & H)| ->].
    + left. rewrite substr_single in Hs. apply inb_In in Hs. eauto.
    + right. apply substr_spec in Hs. exact Hs.
  - intros [(c & Hc & H)|H].
    + exists [c]. split; [apply inv_mll; left; eauto|]. rewrite substr_single. apply inb_In; exact Hc.
    + exists [chSQ; chSQ; chSQ]. split; [apply inv_mll; right; reflexivity|]. apply substr_spec. exact H.
Qed.
