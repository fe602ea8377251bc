(** Numbers: integer literals and integer texts (C10, C11, C12). *)
From Verif Require Import Base Source Utils Items Container Arrays Parser Api Lemmas Escape Strings StringRT StringApi.
From Coq Require Import ZifyBool ZifyNat ZifyN Permutation.
Open Scope nat_scope.

(** A tail that ends a bare value token. *)
Definition delim_tail (tail : str) : Prop := match tail with [] => True | c :: _ => is_val_delim c = true end.
Definition no_delim (s : str) : Prop := Forall (fun c => is_val_delim c = false) s.

Lemma adv_token s tail pre mk : no_delim s -> delim_tail tail ->
  adv_while (fun c => negb (is_val_delim c)) (mkSt pre (s ++ tail) mk) = mkSt (pre ++ s) tail mk.
Proof.
  intros Hs Ht. unfold adv_while. cbn [p_pre p_rest p_mark].
  destruct (take_while_app (fun c => negb (is_val_delim c)) s tail) as [E1 E2].
  - eapply Forall_impl; [|exact Hs]. cbv beta. intros c ->. reflexivity.
  - destruct tail as [|c tl]; [exact I|]. simpl in Ht. rewrite Ht. reflexivity.
  - rewrite E1, E2. reflexivity.
Qed.

Lemma ascii_digit_delim c : is_ascii_digit c = true -> is_val_delim c = false.
Proof.
  unfold is_ascii_digit, is_val_delim, chSP, chTAB, chLF, chCR, chHASH, chCOMMA, chRBR, chRCB. lia.
Qed.

Lemma peek_digit c r : is_ascii_digit c = true -> existsb (str_eqb (peek_loop 4 (c :: r))) special_floats = false.
Proof.
  intros H. cbn [peek_loop]. rewrite (ascii_digit_delim c H).
  assert (E : (c =? chNUL)%N = false) by (unfold is_ascii_digit, chNUL in *; lia). rewrite E. cbn [orb].
  unfold is_ascii_digit in H.
  unfold special_floats. cbn [existsb L map list_ascii_of_string str_eqb].
  repeat match goal with |- context [(c =? N_of_ascii ?a)%N] =>
    let E := fresh in assert (E : (c =? N_of_ascii a)%N = false) by (apply N.eqb_neq; intros ->; vm_compute in H; discriminate);
    rewrite E; clear E end.
  reflexivity.
Qed.

Lemma pv_digit strict n pre c r mk : is_ascii_digit c = true ->
  parse_value strict (S n) (mkSt pre (c :: r) mk) = parse_digit_value (mkSt pre (c :: r) (List.length pre)).
Proof.
  intros H. cbn [parse_value]. unfold bind at 1, mark, set_mark. cbn [p_pre p_rest].
  unfold bind at 1, current, cur. cbn [p_rest].
  pose proof H as H'. unfold is_ascii_digit in H'.
  assert (E1 : (c =? chDQ)%N = false) by (unfold chDQ; lia). rewrite E1.
  assert (E2 : (c =? chSQ)%N = false) by (unfold chSQ; lia). rewrite E2.
  assert (E3 : (c =? 116)%N = false) by lia. rewrite E3.
  assert (E4 : (c =? 102)%N = false) by lia. rewrite E4.
  assert (E5 : (c =? chLBR)%N = false) by (unfold chLBR; lia). rewrite E5.
  assert (E6 : (c =? chLCB)%N = false) by (unfold chLCB; lia). rewrite E6.
  unfold bind at 1, peek. cbn [p_rest]. rewrite peek_digit by exact H.
  assert (E7 : (c =? chPLUS)%N = false) by (unfold chPLUS; lia). rewrite E7.
  assert (E8 : (c =? chMINUS)%N = false) by (unfold chMINUS; lia). rewrite E8.
  cbn [orb]. rewrite H. reflexivity.
Qed.
Lemma pv_signed strict n pre c r mk : c = chPLUS \/ c = chMINUS ->
  parse_value strict (S n) (mkSt pre (c :: r) mk) = parse_signed_value (mkSt pre (c :: r) (List.length pre)).
Proof. intros [->| ->]; reflexivity. Qed.

Lemma extract_tok pre s tail : extract (mkSt (pre ++ s) tail (List.length pre)) = s.
Proof. unfold extract. cbn [p_mark p_pre]. apply skipn_length_app. Qed.

Lemma signed_value pre s tail : no_delim s -> delim_tail tail ->
  parse_signed_value (mkSt pre (s ++ tail) (List.length pre)) =
  match parse_number s with
  | Some v => (Ok (scalar_item v), mkSt (pre ++ s) tail (List.length pre))
  | None => raise KInvalidNumber (mkSt (pre ++ s) tail (List.length pre))
  end.
Proof.
  intros Hs Ht. unfold parse_signed_value. unfold bind at 1, adv_whileM. rewrite adv_token by auto.
  unfold bind, extractM. rewrite extract_tok. destruct (parse_number s); reflexivity.
Qed.
Lemma digit_value pre s tail : no_delim s -> delim_tail tail ->
  loose_match s = None \/ loose_match s = Some (false, false) ->
  parse_digit_value (mkSt pre (s ++ tail) (List.length pre)) =
  match parse_number s with
  | Some v => (Ok (scalar_item v), mkSt (pre ++ s) tail (List.length pre))
  | None => raise KInvalidNumber (mkSt (pre ++ s) tail (List.length pre))
  end.
Proof.
  intros Hs Ht Hl. unfold parse_digit_value. unfold bind at 1, adv_whileM. rewrite adv_token by auto.
  unfold bind at 1, extractM. rewrite extract_tok.
  destruct Hl as [-> | ->]; destruct (parse_number s); reflexivity.
Qed.

(** ** When a token is no date *)
Lemma lit_none c s : ~ In c s -> lit c s = None.
Proof.
  destruct s as [|x s]; [reflexivity|]. simpl. intros H.
  destruct (N.eqb_spec x c); [exfalso; apply H; left; auto|reflexivity].
Qed.
Lemma drop_while_In p s c : In c (drop_while p s) -> In c s.
Proof. intros H. rewrite <- (take_drop p s). apply in_or_app. right. exact H. Qed.
Lemma m_date_none a b s : ~ In chMINUS s -> m_date a b s = None.
Proof.
  intros H. unfold m_date. destruct (take_while is_ascii_digit s); [reflexivity|].
  rewrite lit_none; [reflexivity|]. intros F. apply H. eapply drop_while_In; eauto.
Qed.
Lemma m_time_none a b c s : ~ In chCOLON s -> m_time a b c s = None.
Proof.
  intros H. unfold m_time, two. destruct s as [|x [|y s]]; try reflexivity.
  destruct (a x y); [|reflexivity]. rewrite lit_none; [reflexivity|]. intros F. apply H. right. right. exact F.
Qed.
Lemma m_loose_none s : ~ In chCOLON s -> m_loose_time s = false.
Proof.
  intros H. unfold m_loose_time.
  assert (H' : ~ In chCOLON (match s with [] => s | c :: r => if ((c =? 84) || (c =? 116) || (c =? chSP))%N then r else s end)).
  { destruct s as [|c r]; [exact H|]. destruct (_ || _); [|exact H]. intros F. apply H. right. exact F. }
  rewrite m_time_none by exact H'. reflexivity.
Qed.
Lemma loose_none s : ~ In chMINUS s -> ~ In chCOLON s -> s <> [] -> s <> [chLF] -> loose_match s = None.
Proof.
  intros H1 H2 H3 H4. unfold loose_match. rewrite m_date_none, m_loose_none by auto.
  destruct s as [|x [|y s]]; [congruence| |reflexivity].
  cbn [re_end]. destruct (N.eqb_spec x chLF); [subst; congruence|reflexivity].
Qed.

(** ** Positional value (specification) *)
Definition hexval (c : char) : N :=
  if is_ascii_digit c then c - 48 else if ((97 <=? c) && (c <=? 102))%N then c - 87 else c - 55.
Definition is_digit_of (base : N) (c : char) : bool :=
  (is_ascii_digit c || ((97 <=? c) && (c <=? 102))%N || ((65 <=? c) && (c <=? 70))%N) && (hexval c <? base)%N.
Definition positional (base : N) (ds : str) : N := fold_left (fun a c => (a * base + hexval c)%N) ds 0%N.
Definition base_ok (base : N) : Prop := base = 2%N \/ base = 8%N \/ base = 10%N \/ base = 16%N.

Lemma digit_lower base c : base_ok base -> is_digit_of base c = true ->
  digit_in base (lower_c c) = Some (hexval c) /\ digit_in base c = Some (hexval c).
Proof.
  intros Hb H. unfold is_digit_of, is_ascii_digit in H. unfold digit_in, digit_val, lower_c, hexval, is_ascii_digit in *.
  destruct ((48 <=? c) && (c <=? 57))%N eqn:E1.
  - assert (E : ((65 <=? c) && (c <=? 90))%N = false) by lia. rewrite E, ?E1.
    assert (E2 : (c - 48 <? base)%N = true) by lia. rewrite E2. auto.
  - destruct ((97 <=? c) && (c <=? 102))%N eqn:E3.
    + assert (E : ((65 <=? c) && (c <=? 90))%N = false) by lia. rewrite E, ?E1.
      assert (E4 : ((97 <=? c) && (c <=? 122))%N = true) by lia. rewrite E4.
      assert (E2 : (c - 87 <? base)%N = true) by lia. rewrite E2. auto.
    + assert (E : ((65 <=? c) && (c <=? 90))%N = true) by lia. rewrite E.
      assert (F1 : ((48 <=? c + 32) && (c + 32 <=? 57))%N = false) by lia. rewrite F1.
      assert (F2 : ((97 <=? c + 32) && (c + 32 <=? 122))%N = true) by lia. rewrite F2.
      assert (F3 : ((97 <=? c) && (c <=? 122))%N = false) by lia. rewrite ?E1, F3.
      replace (c + 32 - 87)%N with (c - 55)%N by lia.
      assert (E2 : (c - 55 <? base)%N = true) by lia. rewrite E2. auto.
Qed.

(** ** Underscores *)
Definition dig (base : N) (s : str) : Prop := Forall (fun c => is_digit_of base c = true) s.
Definition dig_und (base : N) (s : str) : Prop := Forall (fun c => is_digit_of base c = true \/ c = chUND) s.

(** [prev]: the previous character is a digit. *)
Fixpoint und_ok (base : N) (prev : bool) (s : str) : bool :=
  match s with
  | [] => true
  | c :: s' => if (c =? chUND)%N
               then prev && (match s' with d :: _ => is_digit_of base d | [] => false end) && und_ok base false s'
               else und_ok base true s'
  end.

Lemma und_not_digit base : is_digit_of base chUND = false.
Proof. unfold is_digit_of, is_ascii_digit, hexval, chUND. reflexivity. Qed.
Lemma base_digit_iff base c : base_ok base -> is_digit_of base c = true \/ c = chUND ->
  base_digit base c = is_digit_of base c.
Proof.
  intros Hb [H|H].
  - rewrite H. unfold base_digit. destruct (digit_lower base c Hb H) as [_ E]. rewrite E. reflexivity.
  - subst. rewrite und_not_digit. unfold base_digit. reflexivity.
Qed.

Lemma drop_und_ok base s : base_ok base -> dig_und base s -> forall prev,
  und_ok base prev s = true -> drop_underscores base prev s = filter (fun c => negb (c =? chUND)%N) s.
Proof.
  intros Hb. induction s as [|c s IH]; intros Hs prev H; [reflexivity|].
  inversion Hs as [|? ? Hc Hs']; subst. cbn [drop_underscores und_ok filter] in *.
  destruct (N.eqb_spec c chUND) as [->|Hne].
  - apply andb_true_iff in H as [H H3]. apply andb_true_iff in H as [H1 H2]. subst prev. cbn [andb negb].
    destruct s as [|d s]; [discriminate|].
    rewrite base_digit_iff, H2 by auto. apply IH; auto.
  - cbn [andb negb]. f_equal. destruct Hc as [Hc|Hc]; [|congruence].
    rewrite base_digit_iff, Hc by auto. apply IH; auto.
Qed.
Lemma drop_und_bad base s : base_ok base -> dig_und base s -> forall prev,
  und_ok base prev s = false -> In chUND (drop_underscores base prev s).
Proof.
  intros Hb. induction s as [|c s IH]; intros Hs prev H; [discriminate|].
  inversion Hs as [|? ? Hc Hs']; subst. cbn [drop_underscores und_ok] in *.
  destruct (N.eqb_spec c chUND) as [->|Hne].
  - cbn [andb]. destruct prev; [|left; reflexivity]. cbn [andb] in *.
    destruct s as [|d s]; [left; reflexivity|].
    inversion Hs'; subst. rewrite base_digit_iff by auto. destruct (is_digit_of base d); [|left; reflexivity].
    apply IH; auto.
  - cbn [andb]. right. destruct Hc as [Hc|Hc]; [|congruence].
    rewrite base_digit_iff, Hc by auto. apply IH; auto.
Qed.

(** Well-formed = groups of digits joined by single underscores. *)
Lemma und_ok_digits base g s : dig base g -> g <> [] -> forall p, und_ok base p (g ++ s) = und_ok base true s.
Proof.
  induction g as [|c g IH]; [congruence|]. intros Hg _ p. inversion Hg; subst.
  cbn [app und_ok]. destruct (N.eqb_spec c chUND) as [->|]; [rewrite und_not_digit in *; discriminate|].
  destruct g as [|c2 g]; [reflexivity|]. apply IH; auto; discriminate.
Qed.
Lemma und_ok_groups base gs : Forall (fun g => dig base g /\ g <> []) gs -> forall p, und_ok base p (join [chUND] gs) = true.
Proof.
  induction gs as [|g gs IH]; intros H p; [reflexivity|]. inversion H as [|? ? [H1 H2] H3]; subst.
  destruct gs as [|g2 gs].
  - cbn [join]. rewrite <- (app_nil_r g), und_ok_digits by auto. reflexivity.
  - change (join [chUND] (g :: g2 :: gs)) with (g ++ chUND :: join [chUND] (g2 :: gs)).
    rewrite und_ok_digits by auto. cbn [und_ok]. rewrite N.eqb_refl. cbn [andb].
    rewrite IH by auto. rewrite andb_true_r.
    inversion H3 as [|? ? [H4 H5] H6]; subst. destruct g2 as [|d g2]; [congruence|]. inversion H4; subst.
    destruct gs; exact H7 || assumption.
Qed.
Lemma groups_of_und_ok base s : dig_und base s -> und_ok base true s = true ->
  exists g gs, s = join [chUND] (g :: gs) /\ dig base g /\ Forall (fun g => dig base g /\ g <> []) gs
    /\ (gs <> [] -> True).
Proof.
  induction s as [|c s IH]; intros Hs H.
  - exists [], []. repeat split; constructor.
  - inversion Hs as [|? ? Hc Hs']; subst. cbn [und_ok] in H. destruct (N.eqb_spec c chUND) as [->|Hne].
    + apply andb_true_iff in H as [H1 H2]. destruct s as [|d s]; [discriminate|]. cbn [andb] in H1.
      assert (Hd : d <> chUND) by (intros ->; rewrite und_not_digit in H1; discriminate).
      assert (H2' : und_ok base true (d :: s) = true).
      { cbn [und_ok] in *. apply N.eqb_neq in Hd. rewrite Hd in *. exact H2. }
      destruct (IH Hs' H2') as (g & gs & E & Hg & Hgs & _).
      exists [], (g :: gs). split; [|split; [constructor|split; [|auto]]].
      * rewrite E. reflexivity.
      * constructor; [|exact Hgs]. split; [exact Hg|]. intros ->.
        destruct gs; simpl in E; [discriminate|]. inversion E. congruence.
    + destruct Hc as [Hc|Hc]; [|congruence]. destruct (IH Hs' H) as (g & gs & E & Hg & Hgs & _).
      exists (c :: g), gs. split; [|split; [constructor; auto|split; auto]].
      rewrite E. destruct gs; reflexivity.
Qed.
Lemma und_ok_iff base s : dig_und base s -> s <> [] ->
  (und_ok base false s = true <-> exists gs, gs <> [] /\ s = join [chUND] gs /\ Forall (fun g => dig base g /\ g <> []) gs).
Proof.
  intros Hs Hne. split.
  - intros H. destruct s as [|c s]; [congruence|]. inversion Hs as [|? ? Hc Hs']; subst.
    cbn [und_ok] in H. destruct (N.eqb_spec c chUND) as [->|Hn]; [discriminate|].
    destruct Hc as [Hc|Hc]; [|congruence].
    destruct (groups_of_und_ok base s Hs' H) as (g & gs & E & Hg & Hgs & _).
    exists ((c :: g) :: gs). split; [discriminate|]. split.
    + rewrite E. destruct gs; reflexivity.
    + constructor; [|exact Hgs]. split; [constructor; auto|discriminate].
  - intros (gs & _ & -> & H). apply und_ok_groups; auto.
Qed.
Lemma filter_join base gs : Forall (fun g => dig base g /\ g <> []) gs ->
  filter (fun c => negb (c =? chUND)%N) (join [chUND] gs) = List.concat gs.
Proof.
  assert (Hd : forall g, dig base g -> filter (fun c => negb (c =? chUND)%N) g = g).
  { induction g as [|c g IH]; intros H; [reflexivity|]. inversion H; subst. cbn [filter].
    destruct (N.eqb_spec c chUND) as [->|]; [rewrite und_not_digit in *; discriminate|]. cbn [negb]. f_equal. auto. }
  induction gs as [|g gs IH]; intros H; [reflexivity|]. inversion H as [|? ? [H1 H2] H3]; subst.
  destruct gs as [|g2 gs].
  - cbn [join List.concat]. rewrite app_nil_r. auto.
  - change (join [chUND] (g :: g2 :: gs)) with (g ++ [chUND] ++ join [chUND] (g2 :: gs)).
    rewrite !filter_app, Hd, IH by auto. reflexivity.
Qed.
Lemma dig_und_join base gs : Forall (fun g => dig base g /\ g <> []) gs -> dig_und base (join [chUND] gs).
Proof.
  assert (Hd : forall g, dig base g -> dig_und base g) by (intros g; apply Forall_impl; auto).
  induction gs as [|g gs IH]; intros H; [constructor|]. inversion H as [|? ? [H1 H2] H3]; subst.
  destruct gs as [|g2 gs]; [apply Hd; exact H1|].
  change (join [chUND] (g :: g2 :: gs)) with (g ++ [chUND] ++ join [chUND] (g2 :: gs)).
  apply Forall_app. split; [apply Hd; exact H1|]. constructor; [right; reflexivity|]. apply IH. exact H3.
Qed.

(** ** int() on clean digits *)
Lemma lower_digit_range base c : is_digit_of base c = true ->
  ((48 <=? lower_c c) && (lower_c c <=? 57) || ((97 <=? lower_c c) && (lower_c c <=? 102)))%N = true.
Proof.
  unfold is_digit_of, is_ascii_digit, lower_c. intros H.
  destruct ((65 <=? c) && (c <=? 90))%N eqn:E; lia.
Qed.
Lemma to_ascii_id s : Forall (fun c => (c <? 127)%N = true) s -> map to_ascii s = s.
Proof.
  induction s as [|c s IH]; intros H; [reflexivity|]. inversion H; subst. cbn [map].
  unfold to_ascii at 1. rewrite H2. f_equal. auto.
Qed.
Lemma strip_id p s : Forall (fun c => p c = false) s -> rstrip_p p (lstrip_p p s) = s.
Proof.
  intros H. unfold rstrip_p, lstrip_p.
  assert (forall l, Forall (fun c => p c = false) l -> drop_while p l = l) as D.
  { destruct l as [|c l]; [reflexivity|]. intros F. inversion F; subst. simpl. rewrite H2. reflexivity. }
  rewrite (D s H). rewrite D; [apply rev_involutive|]. apply Forall_rev. exact H.
Qed.

Lemma int_digits_lower base s : base_ok base -> dig base s -> forall acc b, (s = [] -> b = true) ->
  int_digits base (lower s) acc b = Some (fold_left (fun a c => (a * base + hexval c)%N) s acc).
Proof.
  intros Hb. induction s as [|c s IH]; intros Hs acc b Hne.
  - cbn. rewrite Hne by reflexivity. reflexivity.
  - inversion Hs; subst. cbn [lower map int_digits fold_left].
    destruct (digit_lower base c Hb H1) as [E _].
    pose proof (lower_digit_range base c H1) as Hr.
    assert (Eu : (lower_c c =? chUND)%N = false) by (unfold chUND; lia). rewrite Eu, E.
    apply IH; auto.
Qed.
Lemma int_unsigned_lower base s : base_ok base -> dig base s -> s <> [] ->
  int_unsigned base (lower s) = Some (positional base s).
Proof.
  intros Hb Hs Hne. unfold positional.
  rewrite <- (int_digits_lower base s Hb Hs 0%N false) by (intros; congruence).
  destruct s as [|z [|p r]]; [congruence|reflexivity|].
  cbn [lower map int_unsigned].
  inversion Hs as [|? ? _ Hs']; subst. inversion Hs' as [|? ? Hp _]; subst.
  pose proof (lower_digit_range base p Hp) as Hr.
  destruct (digit_lower base p Hb Hp) as [E _].
  match goal with |- (if ?b then _ else _) = _ => assert (F : b = false) end; [|rewrite F; reflexivity].
  apply andb_false_iff. right.
  destruct (N.eqb_spec (lower_c p) 98) as [E98|].
  - rewrite E98 in *. cbn in E. destruct (N.eqb_spec base 2); [subst; discriminate|]. lia.
  - lia.
Qed.

Lemma digits_ascii base s : dig base s -> Forall (fun c => (c <? 127)%N = true) (lower s).
Proof.
  induction s as [|c s IH]; intros H; [constructor|]. inversion H; subst. cbn [lower map]. constructor; [|apply IH; auto].
  pose proof (lower_digit_range base c H2). lia.
Qed.
Lemma digits_nospace base s : dig base s -> Forall (fun c => c_isspace c = false) (lower s).
Proof.
  induction s as [|c s IH]; intros H; [constructor|]. inversion H; subst. cbn [lower map]. constructor; [|apply IH; auto].
  pose proof (lower_digit_range base c H2). unfold c_isspace. lia.
Qed.

Inductive sign_of : str -> (N -> Z) -> Prop :=
  | sg_none : sign_of [] Z.of_N
  | sg_plus : sign_of [chPLUS] Z.of_N
  | sg_minus : sign_of [chMINUS] (fun n => (- Z.of_N n)%Z).

Lemma py_int_gen base sign f body v : base_ok base -> sign_of sign f -> body <> [] ->
  Forall (fun c => (c <? 127)%N = true) body -> Forall (fun c => c_isspace c = false) body ->
  (sign = [] -> hd 0%N body <> chPLUS /\ hd 0%N body <> chMINUS) ->
  int_unsigned base body = Some v ->
  py_int (sign ++ body) base = Some (f v).
Proof.
  intros Hb Hs Hne Ha Hsp Hh Hv. unfold py_int.
  assert (Ha' : Forall (fun c => (c <? 127)%N = true) (sign ++ body)).
  { apply Forall_app. split; [|exact Ha]. destruct Hs; repeat constructor. }
  assert (Hsp' : Forall (fun c => c_isspace c = false) (sign ++ body)).
  { apply Forall_app. split; [|exact Hsp]. destruct Hs; repeat constructor. }
  rewrite to_ascii_id, strip_id by auto.
  destruct Hs; cbn [app].
  - destruct body as [|c r]; [congruence|]. destruct (Hh eq_refl) as [H1 H2]. simpl in H1, H2.
    apply N.eqb_neq in H1, H2. rewrite H1, H2, Hv. reflexivity.
  - change (chPLUS =? chMINUS)%N with false. rewrite N.eqb_refl, Hv. reflexivity.
  - rewrite N.eqb_refl, Hv. reflexivity.
Qed.

Lemma endswith_dot s : ~ In chDOT s -> endswith (L ".") s = false.
Proof.
  intros H. unfold endswith. change (rev (L ".")) with [chDOT].
  destruct (rev s) as [|c r] eqn:E; [reflexivity|]. cbn [startswith].
  destruct (N.eqb_spec chDOT c) as [<-|]; [|reflexivity]. exfalso. apply H. apply in_rev. rewrite E. left. reflexivity.
Qed.
Lemma take_while_In p s c : In c (take_while p s) -> In c s.
Proof. intros H. rewrite <- (take_drop p s). apply in_or_app. left. exact H. Qed.
Lemma dig_und_range base c : is_digit_of base c = true \/ c = chUND ->
  is_ascii_digit c = true \/ ((97 <=? c) && (c <=? 102))%N = true \/ ((65 <=? c) && (c <=? 70))%N = true \/ c = 95%N.
Proof.
  unfold is_digit_of, chUND. intros [H|H]; [|auto].
  destruct (is_ascii_digit c); [auto|]. destruct ((97 <=? c) && (c <=? 102))%N; [auto|].
  destruct ((65 <=? c) && (c <=? 70))%N; auto; discriminate.
Qed.
Lemma no_underscore_filter (s : str) : ~ In chUND (lower (filter (fun c => negb (c =? chUND)%N) s)).
Proof.
  unfold lower. intros H. apply in_map_iff in H as (c & E & Hc). apply filter_In in Hc as [_ Hc].
  unfold lower_c, chUND in *. destruct ((65 <=? c) && (c <=? 90))%N eqn:F; lia.
Qed.
Lemma inb_false c s : ~ In c s -> inb c s = false.
Proof. intros H. destruct (inb c s) eqn:E; [|reflexivity]. apply inb_In in E. contradiction. Qed.
Lemma drop_underscores_In base c s : forall prev, In c (drop_underscores base prev s) -> In c s.
Proof.
  induction s as [|d s IH]; intros prev H; [exact H|]. cbn [drop_underscores] in H.
  destruct (_ && _ && _); [right; eapply IH; eauto|]. destruct H as [->|H]; [left; auto|right; eapply IH; eauto].
Qed.
Lemma und_ok_dig base s : dig_und base s -> dig base (filter (fun c => negb (c =? chUND)%N) s).
Proof.
  intros H. apply Forall_forall. intros c Hc. apply filter_In in Hc as [Hc Hn].
  unfold dig_und in H; rewrite Forall_forall in H. destruct (H c Hc) as [?|E]; [assumption|]. subst. discriminate.
Qed.
Lemma und_ok_nonempty base s : dig_und base s -> s <> [] -> und_ok base false s = true ->
  filter (fun c => negb (c =? chUND)%N) s <> [].
Proof.
  intros Hs Hne H. destruct s as [|c s]; [congruence|]. cbn [und_ok filter] in *.
  destruct (N.eqb_spec c chUND); [discriminate|]. discriminate.
Qed.

Lemma In_lower_dot s : In chDOT (lower s) -> In chDOT s.
Proof.
  unfold lower. intros H. apply in_map_iff in H as (c & E & Hc).
  unfold lower_c, chDOT in *. destruct ((65 <=? c) && (c <=? 90))%N eqn:F; [lia|]. subst. exact Hc.
Qed.

(** ** Decimal literals *)
Lemma parse_number_dec sign f s : sign_of sign f -> dig_und 10 s -> s <> [] ->
  parse_number (sign ++ s) =
  if Nat.ltb 1 (List.length s) && (hd 0%N s =? 48)%N then None
  else if und_ok 10 false s
  then Some (SInt (f (positional 10 (filter (fun c => negb (c =? chUND)%N) s))) (sign ++ s))
  else None.
Proof.
  intros Hsg Hs Hne.
  assert (Hr : forall c, In c s -> is_ascii_digit c = true \/ c = 95%N).
  { intros c Hc. unfold dig_und in Hs; rewrite Forall_forall in Hs. pose proof (Hs c Hc) as H.
    destruct H as [H|H]; [|auto]. left. unfold is_digit_of, hexval, is_ascii_digit in *.
    destruct ((48 <=? c) && (c <=? 57))%N eqn:E; [reflexivity|].
    destruct ((97 <=? c) && (c <=? 102))%N eqn:E2; lia. }
  assert (Hsplit : (match sign ++ s with
                    | c :: r => if (c =? chPLUS)%N || (c =? chMINUS)%N then ([c], r) else ([], sign ++ s)
                    | [] => ([], []) end) = (sign, s)).
  { destruct Hsg; cbn [app]; try reflexivity.
    destruct s as [|c s]; [reflexivity|]. pose proof (Hr c (or_introl eq_refl)) as Hc.
    unfold is_ascii_digit, chPLUS, chMINUS in *.
    assert (E : ((c =? 43) || (c =? 45))%N = false) by lia. rewrite E. reflexivity. }
  unfold parse_number. rewrite Hsplit. cbv zeta.
  assert (Hdot : startswith (L ".") s = false).
  { destruct s as [|c s]; [reflexivity|]. pose proof (Hr c (or_introl eq_refl)) as Hc. cbn [L list_ascii_of_string map startswith].
    change (N_of_ascii ".") with 46%N. unfold is_ascii_digit in Hc.
    assert (E : (46 =? c)%N = false) by lia. rewrite E. reflexivity. }
  rewrite Hdot, andb_false_r, orb_false_r.
  assert (Hpref : forall x, (x = 46 \/ x = 111 \/ x = 120 \/ x = 98 \/ x = 101)%N -> startswith [48; x]%N s = false).
  { intros x Hx. destruct s as [|a [|b s]]; [reflexivity|cbn; apply andb_false_r|].
    cbn [startswith]. pose proof (Hr b (or_intror (or_introl eq_refl))) as Hb. unfold is_ascii_digit in Hb.
    assert (E : (x =? b)%N = false) by lia. rewrite E, andb_false_r. reflexivity. }
  assert (Hsa : starts_any [L "0."; L "0o"; L "0x"; L "0b"; L "0e"] s = false).
  { unfold starts_any. cbn [existsb]. change (L "0.") with [48; 46]%N. change (L "0o") with [48; 111]%N.
    change (L "0x") with [48; 120]%N. change (L "0b") with [48; 98]%N. change (L "0e") with [48; 101]%N.
    rewrite !Hpref by auto. reflexivity. }
  assert (Hsa2 : starts_any [L "0o"; L "0x"; L "0b"] s = false).
  { unfold starts_any. cbn [existsb]. change (L "0o") with [48; 111]%N.
    change (L "0x") with [48; 120]%N. change (L "0b") with [48; 98]%N.
    rewrite !Hpref by auto. reflexivity. }
  rewrite Hsa, Hsa2. cbn [andb negb]. rewrite andb_true_r.
  replace (startswith (L "0") s) with (hd 0%N s =? 48)%N
    by (destruct s as [|c s]; [congruence|]; cbn; rewrite andb_true_r; apply N.eqb_sym).
  destruct (Nat.ltb 1 (List.length s) && (hd 0%N s =? 48)%N); [reflexivity|].
  change (L "0b") with [48; 98]%N. change (L "0o") with [48; 111]%N. change (L "0x") with [48; 120]%N.
  rewrite !Hpref by auto. cbv iota.
  assert (Hb10 : base_ok 10) by (unfold base_ok; auto).
  destruct (und_ok 10 false s) eqn:Eu.
  - rewrite (drop_und_ok 10 s Hb10 Hs false Eu).
    set (ds := filter (fun c => negb (c =? chUND)%N) s).
    assert (Hds : dig 10 ds) by (apply und_ok_dig; exact Hs).
    assert (Hdne : ds <> []) by (eapply und_ok_nonempty; eauto).
    rewrite inb_false by apply no_underscore_filter.
    assert (Hnd : ~ In chDOT (lower ds)).
    { intros F. apply In_lower_dot in F. unfold ds in F. apply filter_In in F as [F _]. apply Hr in F. unfold is_ascii_digit, chDOT in F. lia. }
    rewrite endswith_dot by exact Hnd. cbn [orb].
    rewrite endswith_dot by (intros F; apply Hnd; eapply take_while_In; exact F). rewrite andb_false_r.
    rewrite (py_int_gen 10 sign f (lower ds) (positional 10 ds)); auto.
    + unfold lower. destruct ds; [congruence|discriminate].
    + eapply digits_ascii; eauto.
    + eapply digits_nospace; eauto.
    + intros _. destruct ds as [|c ds']; [congruence|]. inversion Hds; subst. cbn [lower map hd].
      pose proof (lower_digit_range 10 c H1). unfold chPLUS, chMINUS. lia.
    + apply int_unsigned_lower; auto.
  - pose proof (drop_und_bad 10 s Hb10 Hs false Eu) as Hbad.
    assert (E : inb chUND (lower (drop_underscores 10 false s)) = true).
    { apply inb_In. unfold lower. apply in_map_iff. exists chUND. split; [reflexivity|exact Hbad]. }
    rewrite E. reflexivity.
Qed.

(** ** Hexadecimal, octal, binary literals *)
Definition base_prefix (base : N) : str :=
  if (base =? 16)%N then L "0x" else if (base =? 8)%N then L "0o" else if (base =? 2)%N then L "0b" else [].
Lemma parse_number_prefixed base s : base = 16%N \/ base = 8%N \/ base = 2%N -> dig_und base s -> s <> [] ->
  parse_number (base_prefix base ++ s) =
  if und_ok base false s
  then Some (SInt (Z.of_N (positional base (filter (fun c => negb (c =? chUND)%N) s))) (base_prefix base ++ s))
  else None.
Proof.
  intros Hb Hs Hne.
  assert (Hbok : base_ok base) by (unfold base_ok; destruct Hb as [->|[->| ->]]; auto).
  set (p := if (base =? 16)%N then 120%N else if (base =? 8)%N then 111%N else 98%N).
  assert (Hp : base_prefix base = [48; p]%N) by (destruct Hb as [->|[->| ->]]; reflexivity).
  rewrite Hp. unfold parse_number. cbn [app]. change ((48 =? chPLUS)%N || (48 =? chMINUS)%N) with false. cbv iota zeta.
  cbn [str_eqb negb andb]. rewrite andb_false_r, orb_false_r.
  assert (E1 : starts_any [L "0."; L "0o"; L "0x"; L "0b"; L "0e"] (48%N :: p :: s) = true).
  { destruct Hb as [->|[->| ->]]; reflexivity. }
  rewrite E1. cbn [negb]. rewrite !andb_false_r.
  assert (E2 : (if startswith (L "0b") (48%N :: p :: s) then 2
                else if startswith (L "0o") (48%N :: p :: s) then 8
                     else if startswith (L "0x") (48%N :: p :: s) then 16 else 10)%N = base).
  { destruct Hb as [->|[->| ->]]; reflexivity. }
  rewrite E2.
  assert (E3 : drop_underscores base false (48%N :: p :: s) = 48%N :: p :: drop_underscores base false s).
  { destruct Hb as [->|[->| ->]]; reflexivity. }
  rewrite E3.
  assert (Hlp : lower_c p = p) by (destruct Hb as [->|[->| ->]]; reflexivity).
  assert (Hl48 : lower_c 48 = 48%N) by reflexivity.
  destruct (und_ok base false s) eqn:Eu.
  - rewrite (drop_und_ok base s Hbok Hs false Eu).
    set (ds := filter (fun c => negb (c =? chUND)%N) s).
    assert (Hds : dig base ds) by (apply und_ok_dig; exact Hs).
    assert (Hdne : ds <> []) by (eapply und_ok_nonempty; eauto).
    assert (Hlow : lower (48%N :: p :: ds) = 48%N :: p :: lower ds) by (cbn [lower map]; rewrite Hlp, Hl48; reflexivity).
    rewrite Hlow.
    assert (Hpp : p = 120%N \/ p = 111%N \/ p = 98%N) by (destruct Hb as [->|[->| ->]]; auto).
    rewrite inb_false.
    2:{ intros [F|[F|F]]; [discriminate|unfold chUND in F; lia|revert F; apply no_underscore_filter]. }
    assert (Hnd : ~ In chDOT (48%N :: p :: lower ds)).
    { intros [F|[F|F]]; [discriminate|unfold chDOT in F; lia|].
      apply In_lower_dot in F. unfold ds in F. apply filter_In in F as [F _].
      unfold dig_und in Hs; rewrite Forall_forall in Hs. apply Hs, dig_und_range in F. unfold is_ascii_digit, chDOT in F. lia. }
    rewrite endswith_dot by exact Hnd. cbn [orb].
    rewrite endswith_dot by (intros F; apply Hnd; eapply take_while_In; exact F). rewrite andb_false_r.
    rewrite (py_int_gen base [] Z.of_N (48%N :: p :: lower ds) (positional base ds)); auto.
    + constructor.
    + discriminate.
    + repeat constructor; [lia|eapply digits_ascii; eauto].
    + repeat constructor; [unfold c_isspace; lia|eapply digits_nospace; eauto].
    + intros _. split; discriminate.
    + cbn [int_unsigned].
      match goal with |- (if ?b then _ else _) = _ => assert (F : b = true) end.
      { destruct Hb as [->|[->| ->]]; reflexivity. }
      rewrite F. unfold positional. rewrite <- (int_digits_lower base ds Hbok Hds 0%N false) by (intros; congruence).
      f_equal. destruct ds as [|c ds']; [congruence|]. inversion Hds as [|? ? H1 H2]. cbn [lower map].
      pose proof (lower_digit_range base c H1). assert (Eu2 : (lower_c c =? chUND)%N = false) by (unfold chUND; lia).
      rewrite Eu2. reflexivity.
  - pose proof (drop_und_bad base s Hbok Hs false Eu) as Hbad.
    assert (E : inb chUND (lower (48%N :: p :: drop_underscores base false s)) = true).
    { apply inb_In. cbn [lower map]. right. right. apply in_map_iff. exists chUND. split; [reflexivity|exact Hbad]. }
    rewrite E. reflexivity.
Qed.

(** ** Through the value parser *)
Lemma dig_und_no_delim base s : dig_und base s -> no_delim s.
Proof.
  unfold dig_und, no_delim. apply Forall_impl. intros c H. apply dig_und_range in H. unfold is_ascii_digit, is_val_delim in *.
  unfold chSP, chTAB, chLF, chCR, chHASH, chCOMMA, chRBR, chRCB. lia.
Qed.
Lemma dig_und_notin base s c : dig_und base s -> (c < 48 \/ (57 < c /\ c < 65))%N -> ~ In c s.
Proof.
  intros H Hc F. unfold dig_und in H; rewrite Forall_forall in H. apply H, dig_und_range in F. unfold is_ascii_digit in F. lia.
Qed.

Definition number_result (o : option scalar) (pre s tail : str) (mk : nat) : res item * pst :=
  match o with
  | Some v => (Ok (scalar_item v), mkSt (pre ++ s) tail mk)
  | None => raise KInvalidNumber (mkSt (pre ++ s) tail mk)
  end.
(** A token read as a number. *)
Definition number_token (w : str) : Prop :=
  forall strict n pre mk tail, delim_tail tail ->
    parse_value strict (S n) (mkSt pre (w ++ tail) mk) = number_result (parse_number w) pre w tail (List.length pre).

Lemma token_dec s : dig_und 10 s -> s <> [] -> is_ascii_digit (hd 0%N s) = true -> number_token s.
Proof.
  intros Hs Hne Hd strict n pre mk tail Ht. destruct s as [|c s]; [congruence|]. cbn [hd] in Hd.
  change ((c :: s) ++ tail) with (c :: (s ++ tail)). rewrite pv_digit by exact Hd.
  change (c :: (s ++ tail)) with ((c :: s) ++ tail).
  rewrite digit_value; auto.
  - eapply dig_und_no_delim; eauto.
  - left. apply loose_none.
    + eapply dig_und_notin; eauto. unfold chMINUS. lia.
    + eapply dig_und_notin; eauto. unfold chCOLON. lia.
    + discriminate.
    + intros E. inversion E; subst. discriminate.
Qed.
Lemma token_signed c s : c = chPLUS \/ c = chMINUS -> no_delim s -> number_token (c :: s).
Proof.
  intros Hc Hs strict n pre mk tail Ht.
  change ((c :: s) ++ tail) with (c :: (s ++ tail)). rewrite pv_signed by exact Hc.
  change (c :: (s ++ tail)) with ((c :: s) ++ tail).
  rewrite signed_value; auto. constructor; [destruct Hc as [->| ->]; reflexivity|exact Hs].
Qed.
Lemma token_prefixed base s : base = 16%N \/ base = 8%N \/ base = 2%N -> dig_und base s -> number_token (base_prefix base ++ s).
Proof.
  intros Hb Hs strict n pre mk tail Ht.
  set (p := if (base =? 16)%N then 120%N else if (base =? 8)%N then 111%N else 98%N).
  assert (Hp : base_prefix base = [48; p]%N) by (destruct Hb as [->|[->| ->]]; reflexivity).
  assert (Hpp : p = 120%N \/ p = 111%N \/ p = 98%N) by (destruct Hb as [->|[->| ->]]; auto).
  rewrite Hp. cbn [app]. rewrite pv_digit by reflexivity.
  change (48%N :: p :: s ++ tail) with ((48%N :: p :: s) ++ tail).
  rewrite digit_value; auto.
  - constructor; [reflexivity|]. constructor; [destruct Hpp as [->|[->| ->]]; reflexivity|]. eapply dig_und_no_delim; eauto.
  - left. apply loose_none.
    + intros [F|[F|F]]; [discriminate|unfold chMINUS in F; lia|]. revert F. eapply dig_und_notin; eauto. unfold chMINUS. lia.
    + intros [F|[F|F]]; [discriminate|unfold chCOLON in F; lia|]. revert F. eapply dig_und_notin; eauto. unfold chCOLON. lia.
    + discriminate.
    + discriminate.
Qed.

Lemma number_token_reads w v : number_token w -> parse_number w = Some v ->
  reads_as w (scalar_item v) delim_tail.
Proof.
  intros Hw Hv strict n pre mk tail Ht Hn. destruct n as [|n]; [lia|]. exists (List.length pre).
  rewrite Hw by exact Ht. rewrite Hv. reflexivity.
Qed.
Lemma number_token_err w : number_token w -> parse_number w = None ->
  exists l c, value_of w = Err (ParseErr KInvalidNumber l c).
Proof.
  intros Hw Hv. unfold value_of, start, parse_fuel. unfold bind at 1.
  pose proof (Hw false (4 * List.length w + 15) [] 0 [] I) as E. rewrite app_nil_r in E.
  replace (4 * List.length w + 16) with (S (4 * List.length w + 15)) by lia.
  rewrite E, Hv. cbn [number_result]. unfold raise, parse_error. destruct (to_linecol _ _) as [l c]. cbn. eauto.
Qed.

(** ** Decimal texts *)
Lemma dec_aux_spec fuel : forall n acc, (n < 10 ^ N.of_nat fuel)%N -> (0 < fuel) ->
  exists d r, dec_aux fuel n acc = d :: r ++ acc /\ dig 10 (d :: r)
    /\ positional 10 (d :: r) = n /\ ((1 <= n)%N -> d <> 48%N) /\ (n = 0%N -> d = 48%N /\ r = []).
Proof.
  induction fuel as [|f IH]; intros n acc Hn Hf; [lia|]. cbn [dec_aux].
  assert (Hdig : forall m, (m < 10)%N -> is_digit_of 10 (48 + m) = true /\ hexval (48 + m) = m).
  { intros m Hm. unfold is_digit_of, hexval, is_ascii_digit.
    assert (E : ((48 <=? 48 + m) && (48 + m <=? 57))%N = true) by lia. rewrite E. cbn [orb andb]. lia. }
  destruct (N.ltb_spec n 10) as [Hlt|Hge].
  - exists (48 + n)%N, []. destruct (Hdig n Hlt) as [D1 D2].
    split; [reflexivity|]. split; [constructor; [exact D1|constructor]|]. split; [|split].
    + unfold positional. cbn [fold_left]. rewrite D2. lia.
    + lia.
    + intros ->. split; [reflexivity|reflexivity].
  - assert (Hf' : 0 < f).
    { destruct f; [|lia]. change (10 ^ N.of_nat 1)%N with 10%N in Hn. lia. }
    assert (Hq : (n / 10 < 10 ^ N.of_nat f)%N).
    { apply N.div_lt_upper_bound; [lia|]. rewrite Nat2N.inj_succ, N.pow_succ_r' in Hn. exact Hn. }
    destruct (IH (n / 10)%N ((48 + n mod 10)%N :: acc) Hq Hf') as (d & r & E & Hd & Hp & Hz & _).
    destruct (Hdig (n mod 10)%N) as [D1 D2]; [apply N.mod_lt; lia|].
    exists d, (r ++ [(48 + n mod 10)%N]). rewrite E. split; [rewrite <- app_assoc; reflexivity|]. split; [|split; [|split]].
    + inversion Hd; subst. constructor; [assumption|]. apply Forall_app. split; [assumption|]. constructor; [exact D1|constructor].
    + unfold positional in *. change (d :: r ++ [(48 + n mod 10)%N]) with ((d :: r) ++ [(48 + n mod 10)%N]).
      rewrite fold_left_app, Hp. cbn [fold_left]. rewrite D2.
      pose proof (N.div_mod n 10). lia.
    + intros _. apply Hz. assert (10 / 10 <= n / 10)%N by (apply N.div_le_mono; lia). change (10 / 10)%N with 1%N in *. lia.
    + lia.
Qed.
Lemma dec_N_spec n : exists d r, dec_N n = d :: r /\ dig 10 (d :: r)
    /\ positional 10 (d :: r) = n /\ ((1 <= n)%N -> d <> 48%N) /\ (n = 0%N -> d = 48%N /\ r = []).
Proof.
  unfold dec_N.
  assert (Hn : (n < 10 ^ N.of_nat (S (N.size_nat n)))%N).
  { destruct n as [|p]; [reflexivity|].
    assert (Hs : (N.pos p < 2 ^ N.of_nat (N.size_nat (N.pos p)))%N).
    { cbn [N.size_nat]. clear. induction p as [p IH|p IH|]; cbn [Pos.size_nat]; [| |reflexivity];
      rewrite Nat2N.inj_succ, N.pow_succ_r'; lia. }
    eapply N.lt_le_trans; [exact Hs|]. etransitivity; [apply N.pow_le_mono_l with (b := 10%N); lia|].
    apply N.pow_le_mono_r; lia. }
  destruct (dec_aux_spec _ n [] Hn) as (d & r & E & H); [lia|]. rewrite app_nil_r in E. exists d, r. split; auto.
Qed.
Lemma dig_filter base s : dig base s -> filter (fun c => negb (c =? chUND)%N) s = s.
Proof.
  intros H. pose proof (filter_join base [s]) as F. cbn [join List.concat] in F. rewrite app_nil_r in F.
  destruct s as [|c s]; [reflexivity|]. apply F. constructor; [|constructor]. split; [exact H|discriminate].
Qed.
Lemma dig_und_ok base s p : dig base s -> und_ok base p s = true.
Proof.
  destruct s as [|c s]; [reflexivity|]. intros H. rewrite <- (app_nil_r (c :: s)), und_ok_digits; [reflexivity|exact H|discriminate].
Qed.
Lemma dig_dig_und base s : dig base s -> dig_und base s.
Proof. apply Forall_impl. auto. Qed.

Lemma dig10_ascii c : is_digit_of 10 c = true -> is_ascii_digit c = true.
Proof.
  unfold is_digit_of, hexval. destruct (is_ascii_digit c) eqn:E; [auto|]. unfold is_ascii_digit in E.
  destruct ((97 <=? c) && (c <=? 102))%N eqn:E2; lia.
Qed.

(** The text of an integer, with an optional extra plus sign, reads back. *)
Lemma dec_number sign f n : sign_of sign f ->
  parse_number (sign ++ dec_N n) = Some (SInt (f n) (sign ++ dec_N n)) /\ number_token (sign ++ dec_N n).
Proof.
  intros Hs. destruct (dec_N_spec n) as (d & r & E & Hd & Hp & Hz & H0). rewrite E.
  assert (Hdu : dig_und 10 (d :: r)) by (apply dig_dig_und; exact Hd).
  split.
  - rewrite (parse_number_dec sign f) by (auto; discriminate).
    assert (Hl : Nat.ltb 1 (List.length (d :: r)) && (hd 0%N (d :: r) =? 48)%N = false).
    { cbn [hd]. destruct (N.eq_dec n 0) as [En|Hn].
      - destruct (H0 En) as [-> ->]. reflexivity.
      - assert (d <> 48%N) by (apply Hz; lia). apply N.eqb_neq in H. rewrite H. apply andb_false_r. }
    rewrite Hl, dig_und_ok, (dig_filter 10), Hp by exact Hd. reflexivity.
  - assert (Ha : is_ascii_digit d = true) by (inversion Hd; subst; apply dig10_ascii; assumption).
    destruct Hs; cbn [app].
    + apply token_dec; auto. discriminate.
    + apply token_signed; auto. eapply dig_und_no_delim; eauto.
    + apply token_signed; auto. eapply dig_und_no_delim; eauto.
Qed.

Lemma number_token_value w v : number_token w -> parse_number w = Some v -> value_of w = Ok (scalar_item v).
Proof. intros H1 H2. apply (reads_value_of w _ delim_tail I); apply number_token_reads; auto. Qed.

Definition api_int_ok (n : Z) (w : str) : Prop :=
  exists it, value_of w = Ok it /\ int_value it = Some n /\ item_string it = w /\ reads_as w it delim_tail.
Lemma api_int_ok_of w n : number_token w -> parse_number w = Some (SInt n w) -> api_int_ok n w.
Proof.
  intros H1 H2. exists (scalar_item (SInt n w)). repeat split.
  - apply number_token_value; auto.
  - apply number_token_reads; auto.
Qed.
Lemma dec_Z_ok n : api_int_ok n (dec_Z n).
Proof.
  destruct n as [|p|p]; cbn [dec_Z].
  - apply (api_int_ok_of [48%N] 0%Z); [|reflexivity]. apply (token_dec [48%N]); [|discriminate|reflexivity].
    constructor; [left; reflexivity|constructor].
  - destruct (dec_number [] Z.of_N (Npos p) sg_none) as [H1 H2]. apply api_int_ok_of; auto.
  - destruct (dec_number [chMINUS] _ (Npos p) sg_minus) as [H1 H2]. apply api_int_ok_of; auto.
Qed.
Lemma plus_dec_Z_ok n : (0 <= n)%Z -> api_int_ok n (chPLUS :: dec_Z n).
Proof.
  intros Hn. destruct n as [|p|p]; [| |lia]; cbn [dec_Z].
  - destruct (dec_number [chPLUS] _ 0 sg_plus) as [H1 H2]. apply api_int_ok_of; auto.
  - destruct (dec_number [chPLUS] _ (Npos p) sg_plus) as [H1 H2]. apply api_int_ok_of; auto.
Qed.
(** Two signs are never a number. *)
Lemma sign2_unsigned base s : (forall c, In c s -> c <> chUND) -> int_unsigned base (chMINUS :: s) = None.
Proof. intros _. destruct s as [|p r]; reflexivity. Qed.
Lemma sign2_float s : float_unsigned (chMINUS :: s) = None.
Proof. reflexivity. Qed.
Lemma two_signs p : exists l c, value_of (chMINUS :: dec_Z (Zneg p)) = Err (ParseErr KInvalidNumber l c).
Proof.
  destruct (dec_N_spec (Npos p)) as (d & r & E & Hd & _). cbn [dec_Z]. rewrite E.
  assert (Hnd : no_delim (d :: r)) by (eapply dig_und_no_delim, dig_dig_und; eauto).
  apply number_token_err.
  - apply token_signed; [auto|]. constructor; [reflexivity|exact Hnd].
  - set (s := d :: r) in *. clearbody s. unfold parse_number. cbn [app]. rewrite N.eqb_refl, orb_true_r. cbv iota zeta.
    assert (E1 : forall x q, startswith (48%N :: q) (chMINUS :: x) = false) by reflexivity.
    assert (Hdot : ~ In chDOT (lower s)).
    { intros F. apply In_lower_dot in F. revert F. eapply dig_und_notin; [apply dig_dig_und; exact Hd|]. unfold chDOT. lia. }
    assert (E2 : drop_underscores 10 false (chMINUS :: s) = chMINUS :: s).
    { cbn [drop_underscores]. change ((chMINUS =? chUND)%N) with false. cbn [andb]. f_equal. change (base_digit 10 chMINUS) with false.
      rewrite (drop_und_ok 10 s) by (unfold base_ok; auto using dig_dig_und, dig_und_ok). apply (dig_filter 10). exact Hd. }
    change (L "0b") with [48; 98]%N. change (L "0o") with [48; 111]%N. change (L "0x") with [48; 120]%N. rewrite !E1.
    cbv iota. rewrite E2.
    change (lower (chMINUS :: s)) with (chMINUS :: lower s).
    assert (E3 : forall b, py_int ([chMINUS] ++ chMINUS :: lower s) b = None).
    { intros b. unfold py_int. rewrite to_ascii_id, strip_id.
      - cbn [app]. rewrite N.eqb_refl. destruct (lower s); reflexivity.
      - repeat constructor. eapply digits_nospace; eauto.
      - repeat constructor. eapply digits_ascii; eauto. }
    assert (E4 : py_float ([chMINUS] ++ chMINUS :: lower s) = None).
    { unfold py_float. rewrite to_ascii_id, strip_id.
      - reflexivity.
      - repeat constructor. eapply digits_nospace; eauto.
      - repeat constructor. eapply digits_ascii; eauto. }
    rewrite E3, E4.
    repeat match goal with |- (if ?b then _ else _) = _ => destruct b end; reflexivity.
Qed.

(** Arithmetic: when the item of a result is readable. *)
Lemma int_new_ok raw r : int_sign raw = false \/ (0 <= r)%Z -> api_int_ok r (int_new_raw raw r).
Proof.
  intros H. unfold int_new_raw. destruct (int_sign raw).
  - destruct H as [H|H]; [discriminate|]. destruct (Z.leb_spec 0 r); [|lia]. apply plus_dec_Z_ok. exact H.
  - apply dec_Z_ok.
Qed.
Lemma int_new_bad raw r : int_sign raw = true -> (r < 0)%Z ->
  exists l c, value_of (int_new_raw raw r) = Err (ParseErr KInvalidNumber l c).
Proof.
  intros H Hr. unfold int_new_raw. rewrite H. destruct (Z.leb_spec 0 r); [lia|].
  destruct r as [|p|p]; try lia. apply two_signs.
Qed.

(** ** Literals *)
Definition groups_ok (base : N) (gs : list str) : Prop := gs <> [] /\ Forall (fun g => dig base g /\ g <> []) gs.
(** A digit string with underscores strictly between digits. *)
Definition well_grouped (base : N) (s : str) : Prop := exists gs, groups_ok base gs /\ s = join [chUND] gs.

Lemma join_nonempty base gs : groups_ok base gs -> join [chUND] gs <> [].
Proof.
  intros [H1 H2]. destruct gs as [|g gs]; [congruence|]. inversion H2 as [|? ? [_ H] _]; subst.
  destruct gs; cbn [join]; [exact H|]. destruct g; [congruence|discriminate].
Qed.
Lemma und_ok_well base s : dig_und base s -> s <> [] -> und_ok base false s = true <-> well_grouped base s.
Proof.
  intros H1 H2. rewrite und_ok_iff by auto. unfold well_grouped, groups_ok. split.
  - intros (gs & A & B & C). eauto.
  - intros (gs & (A & C) & B). eauto.
Qed.

Lemma dec_literal_ok sign f gs : sign_of sign f -> groups_ok 10 gs ->
  (List.length (join [chUND] gs) = 1 \/ hd 0%N (join [chUND] gs) <> 48%N) ->
  api_int_ok (f (positional 10 (List.concat gs))) (sign ++ join [chUND] gs).
Proof.
  intros Hs Hg H0. pose proof Hg as [Hg1 Hg2]. pose proof (join_nonempty _ _ Hg) as Hne.
  assert (Hdu : dig_und 10 (join [chUND] gs)) by (apply dig_und_join; exact Hg2).
  apply api_int_ok_of.
  - destruct Hs; cbn [app].
    + apply token_dec; auto. destruct gs as [|g gs]; [congruence|]. inversion Hg2 as [|? ? [A B] _]; subst.
      destruct g as [|c g]; [congruence|]. inversion A; subst. destruct gs; apply dig10_ascii; assumption.
    + apply token_signed; auto. eapply dig_und_no_delim; eauto.
    + apply token_signed; auto. eapply dig_und_no_delim; eauto.
  - rewrite (parse_number_dec sign f) by auto.
    assert (E : Nat.ltb 1 (List.length (join [chUND] gs)) && (hd 0%N (join [chUND] gs) =? 48)%N = false).
    { apply andb_false_iff. destruct H0 as [->|H0]; [left; reflexivity|right; apply N.eqb_neq; exact H0]. }
    rewrite E, und_ok_groups, (filter_join 10) by exact Hg2. reflexivity.
Qed.
Lemma prefixed_literal_ok base gs : base = 16%N \/ base = 8%N \/ base = 2%N -> groups_ok base gs ->
  api_int_ok (Z.of_N (positional base (List.concat gs))) (base_prefix base ++ join [chUND] gs).
Proof.
  intros Hb Hg. pose proof Hg as [Hg1 Hg2]. pose proof (join_nonempty _ _ Hg) as Hne.
  assert (Hdu : dig_und base (join [chUND] gs)) by (apply dig_und_join; exact Hg2).
  apply api_int_ok_of.
  - apply token_prefixed; auto.
  - rewrite parse_number_prefixed by auto. rewrite und_ok_groups, (filter_join base) by exact Hg2. reflexivity.
Qed.
Lemma value_underscore s : exists l c, value_of (chUND :: s) = Err (ParseErr (KUnexpectedChar chUND) l c).
Proof.
  unfold value_of, start, parse_fuel. unfold bind at 1.
  replace (4 * List.length (chUND :: s) + 16) with (S (4 * List.length (chUND :: s) + 15)) by lia.
  cbn [parse_value]. unfold bind at 1, mark, set_mark. cbn [p_pre p_rest].
  unfold bind at 1, current, cur. cbn [p_rest].
  change ((chUND =? chDQ)%N) with false. change ((chUND =? chSQ)%N) with false.
  change ((chUND =? 116)%N) with false. change ((chUND =? 102)%N) with false.
  change ((chUND =? chLBR)%N) with false. change ((chUND =? chLCB)%N) with false. cbv iota.
  unfold bind at 1, peek. cbn [p_rest].
  assert (E : existsb (str_eqb (peek_loop 4 (chUND :: s))) special_floats = false) by reflexivity.
  rewrite E. change ((chUND =? chPLUS)%N || (chUND =? chMINUS)%N) with false.
  change (is_ascii_digit chUND) with false. cbv iota.
  cbn [orb]. cbv iota. unfold raise, parse_error. destruct (to_linecol _ _) as [l c]. cbn [fst]. eauto.
Qed.
Lemma dec_literal_bad sign f s : sign_of sign f -> dig_und 10 s -> s <> [] ->
  (~ well_grouped 10 s \/ (1 < List.length s /\ hd 0%N s = 48%N)) ->
  exists e, value_of (sign ++ s) = Err e /\ is_tomlkit_error e = true.
Proof.
  intros Hs Hdu Hne Hbad.
  assert (Hnone : parse_number (sign ++ s) = None).
  { rewrite (parse_number_dec sign f) by auto.
    destruct (Nat.ltb 1 (List.length s) && (hd 0%N s =? 48)%N) eqn:E; [reflexivity|].
    destruct Hbad as [Hbad|[H1 H2]].
    - rewrite <- und_ok_well in Hbad by auto. destruct (und_ok 10 false s); [exfalso; auto|reflexivity].
    - rewrite H2 in E. apply Nat.ltb_lt in H1. rewrite H1 in E. discriminate. }
  destruct Hs; cbn [app] in *.
  - destruct s as [|c s]; [congruence|]. inversion Hdu as [|? ? Hc _]; subst. destruct Hc as [Hc| ->].
    + destruct (number_token_err (c :: s)) as (l & k & E); auto.
      { apply token_dec; auto. apply dig10_ascii; exact Hc. }
      eexists. split; [exact E|reflexivity].
    + destruct (value_underscore s) as (l & k & E). eexists. split; [exact E|reflexivity].
  - destruct (number_token_err (chPLUS :: s)) as (l & k & E); auto.
    { apply token_signed; auto. eapply dig_und_no_delim; eauto. }
    eexists. split; [exact E|reflexivity].
  - destruct (number_token_err (chMINUS :: s)) as (l & k & E); auto.
    { apply token_signed; auto. eapply dig_und_no_delim; eauto. }
    eexists. split; [exact E|reflexivity].
Qed.
Lemma prefixed_literal_bad base s : base = 16%N \/ base = 8%N \/ base = 2%N -> dig_und base s -> s <> [] ->
  ~ well_grouped base s ->
  exists e, value_of (base_prefix base ++ s) = Err e /\ is_tomlkit_error e = true.
Proof.
  intros Hb Hdu Hne Hbad.
  destruct (number_token_err (base_prefix base ++ s)) as (l & k & E).
  - apply token_prefixed; auto.
  - rewrite parse_number_prefixed by auto. rewrite <- und_ok_well in Hbad by auto.
    destruct (und_ok base false s); [exfalso; auto|reflexivity].
  - eexists. split; [exact E|reflexivity].
Qed.
