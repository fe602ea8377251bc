(** CompNum: every TOML number is read as the number it stands for (C38). *)
From Verif Require Import Base Source Utils Items Container Arrays Parser Api Lemmas Escape Strings StringRT StringApi Numbers Floats Dates Keys ContOps PyVal PyItem ItemConv DumpValue Grammar Meaning Denote.
From Coq Require Import ZifyBool ZifyNat ZifyN.
Open Scope nat_scope.

Lemma dig_digits s : dig 10 s -> digits s.
Proof. apply Forall_impl. intros c. apply dig10_ascii. Qed.
Lemma dvalue_pos s : dig 10 s -> dvalue s = positional 10 s.
Proof.
  unfold dvalue, positional. generalize 0%N. induction s as [|c s IH]; intros a H; [reflexivity|]. inversion H as [|? ? Hc Hs]; subst. cbn [fold_left].
  rewrite IH by exact Hs. f_equal. unfold hexval. rewrite (dig10_ascii c Hc). reflexivity.
Qed.
Lemma groups_dig base gs : groups_ok base gs -> dig base (List.concat gs) /\ List.concat gs <> [].
Proof.
  intros [Hne H]. split.
  - unfold dig. clear Hne. induction H as [|g gs [Hg _] F IH]; [constructor|]. cbn [List.concat]. apply Forall_app. split; assumption.
  - destruct gs as [|g gs]; [congruence|]. inversion H as [|? ? [_ Hg] F]; subst. cbn [List.concat]. destruct g; [congruence|discriminate].
Qed.
Lemma run_dig base ds w : run base ds w -> dig base ds /\ ds <> [].
Proof. intros (gs & G & -> & _). apply groups_dig, G. Qed.
Lemma run_und base ds w : run base ds w -> dig_und base w /\ w <> [].
Proof. intros (gs & G & _ & ->). split; [apply dig_und_join, G|eapply join_nonempty, G]. Qed.
Lemma run_head base ds w : run base ds w -> hd 0%N w = hd 0%N ds /\ (List.length ds = 1 -> w = ds).
Proof.
  intros (gs & [Hne H] & -> & ->). destruct gs as [|g gs]; [congruence|]. inversion H as [|? ? [_ Hg] F]; subst.
  destruct g as [|c g]; [congruence|]. destruct gs as [|g2 gs]; cbn [join List.concat].
  - rewrite app_nil_r. auto.
  - split; [reflexivity|]. inversion F as [|? ? [_ Hg2] _]; subst. destruct g2 as [|c2 g2]; [congruence|].
    rewrite !app_length. cbn [List.length]. lia.
Qed.
(** * Integers *)
Lemma int_reads w z : int_means w z -> exists sv t, reads_as w (IVal sv t) delim_tail /\ unwrap (IVal sv t) = Some (PInt z) /\ scalar_string sv = w.
Proof.
  intros H. assert (A : api_int_ok z w).
  { destruct H as [s neg ds w Hs Hr Hz|ds w Hr|ds w Hr|ds w Hr].
    - destruct (run_head _ _ _ Hr) as [Hh H1]. destruct (run_dig _ _ _ Hr) as [Hd Hn]. destruct Hr as (gs & G & -> & ->).
      assert (Z0 : List.length (join [chUND] gs) = 1 \/ hd 0%N (join [chUND] gs) <> 48%N).
      { unfold chUND. destruct Hz as [Hz|Hz]; [right; rewrite Hh; exact Hz|left; rewrite (H1 Hz); exact Hz]. }
      destruct Hs.
      + replace ((if false then -1 else 1) * Z.of_N (positional 10 (List.concat gs)))%Z with (Z.of_N (positional 10 (List.concat gs))) by lia.
        apply (dec_literal_ok [] Z.of_N gs); [constructor|exact G|exact Z0].
      + replace ((if false then -1 else 1) * Z.of_N (positional 10 (List.concat gs)))%Z with (Z.of_N (positional 10 (List.concat gs))) by lia.
        apply (dec_literal_ok [chPLUS] Z.of_N gs); [constructor|exact G|exact Z0].
      + replace ((if true then -1 else 1) * Z.of_N (positional 10 (List.concat gs)))%Z with ((fun n => - Z.of_N n)%Z (positional 10 (List.concat gs))) by lia.
        apply (dec_literal_ok [chMINUS] (fun n => - Z.of_N n)%Z gs); [constructor|exact G|exact Z0].
    - destruct Hr as (gs & G & -> & ->). apply (prefixed_literal_ok 16 gs); auto.
    - destruct Hr as (gs & G & -> & ->). apply (prefixed_literal_ok 8 gs); auto.
    - destruct Hr as (gs & G & -> & ->). apply (prefixed_literal_ok 2 gs); auto. }
  destruct A as (it & _ & V & St & R). destruct it as [ | | |sv t| | | | ]; try discriminate V. exists sv, t. split; [exact R|]. split; [|exact St]. destruct sv; try discriminate V. cbn in V. inversion V; subst. reflexivity.
Qed.

(** * Floats *)
Definition num_val (sign clean : str) : option (Z + fval) :=
  if inb chUND clean then None
  else if endswith (L ".") clean || (negb (startswith (L "0x") clean) && endswith (L ".") (before_char 101 clean)) then None
  else match py_int (sign ++ clean) 10 with
       | Some z => Some (inl z)
       | None => match py_float (sign ++ clean) with Some f => Some (inr f) | None => None end
       end.
Definition num_item (o : option (Z + fval)) (w : str) : option scalar :=
  match o with Some (inl z) => Some (SInt z w) | Some (inr f) => Some (SFloat f w) | None => None end.
(** After a lone zero: a point or [e]. *)
Definition lead_ok (raw : str) : Prop :=
  match raw with
  | c :: r => is_ascii_digit c = true /\ (c = 48%N -> match r with d :: _ => d = 46%N \/ d = 101%N | [] => False end)
  | [] => False
  end.
Lemma parse_number_num neg sg raw : fsign neg sg -> lead_ok raw ->
  parse_number (sg ++ raw) = num_item (num_val sg (lower (drop_underscores 10 false raw))) (sg ++ raw).
Proof.
  intros Hsg H. destruct raw as [|c r]; [destruct H|]. destruct H as [Hc Hz]. pose proof (digit_range _ Hc) as Rc.
  unfold parse_number. assert (Hsplit : (match sg ++ c :: r with
                    | x :: y => if (x =? chPLUS)%N || (x =? chMINUS)%N then ([x], y) else ([], sg ++ c :: r)
                    | [] => ([], []) end) = (sg, c :: r)).
  { destruct Hsg; cbn [app]; try reflexivity. assert (Q1 : ((c =? chPLUS) || (c =? chMINUS))%N = false) by (unfold chPLUS, chMINUS; lia). rewrite Q1. reflexivity. }
  rewrite Hsplit.
  cbv zeta.
  assert (Hx : forall x, (x = 111 \/ x = 120 \/ x = 98)%N -> startswith [48; x]%N (c :: r) = false).
  { intros x Hx. cbn [startswith]. destruct (N.eqb_spec 48 c) as [<-|N]; [|reflexivity]. specialize (Hz eq_refl). destruct r as [|d r]; [destruct Hz|].
    cbn [andb startswith]. destruct Hz as [->| ->]; destruct Hx as [->|[->| ->]]; reflexivity. }
  assert (Hlead : startswith (L "0") (c :: r) && negb (starts_any [L "0."; L "0o"; L "0x"; L "0b"; L "0e"] (c :: r)) = false).
  { change (L "0") with [48%N]. cbn [startswith]. destruct (N.eqb_spec 48 c) as [<-|N]; [|reflexivity]. specialize (Hz eq_refl). destruct r as [|d r]; [destruct Hz|].
    destruct Hz as [->| ->]; reflexivity. }
  assert (Hdot : startswith (L ".") (c :: r) = false).
  { change (L ".") with [46%N]. cbn [startswith]. assert (Q1 : (46 =? c)%N = false) by lia. rewrite Q1. reflexivity. }
  rewrite Hlead, Hdot, andb_false_r. cbn [orb]. rewrite andb_false_r.
  unfold starts_any. cbn [existsb]. change (L "0b") with [48; 98]%N. change (L "0o") with [48; 111]%N. change (L "0x") with [48; 120]%N. rewrite !Hx by auto. cbn [orb andb].
  unfold num_val, num_item. change (L "0x") with [48; 120]%N. destruct (inb chUND _); [reflexivity|]. match goal with |- (if ?b then _ else _) = _ => destruct b end; [reflexivity|].
  destruct (py_int _ 10); [reflexivity|]. destruct (py_float _); reflexivity.
Qed.
Lemma base_digit_dig c : is_digit_of 10 c = true -> base_digit 10 c = true /\ (c =? chUND)%N = false.
Proof.
  intros H. destruct (digit_lower 10 c) as [_ H1]; [unfold base_ok; auto|exact H|]. split.
  - unfold base_digit. rewrite H1. reflexivity.
  - apply N.eqb_neq. intros ->. discriminate.
Qed.
Lemma drop_group g : dig 10 g -> g <> [] -> forall p rest, drop_underscores 10 p (g ++ rest) = g ++ drop_underscores 10 true rest.
Proof.
  induction g as [|c g IH]; intros H Hn p rest; [congruence|]. inversion H as [|? ? Hc Hg]; subst. destruct (base_digit_dig c Hc) as [B U].
  cbn [app drop_underscores]. rewrite U, B. cbn [andb]. f_equal. destruct g as [|d g]; [reflexivity|]. apply IH; [exact Hg|discriminate].
Qed.
Lemma drop_run ds w : run 10 ds w -> forall p rest, drop_underscores 10 p (w ++ rest) = ds ++ drop_underscores 10 true rest.
Proof.
  intros (gs & [Hne H] & -> & ->). induction H as [|g gs [Hg Hgn] F IH]; [congruence|]. intros p rest. destruct gs as [|g2 gs].
  - cbn [join List.concat]. rewrite app_nil_r. apply drop_group; assumption.
  - change (join [95%N] (g :: g2 :: gs)) with (g ++ [95%N] ++ join [95%N] (g2 :: gs)). cbn [List.concat]. rewrite <- !app_assoc. rewrite drop_group by assumption. f_equal.
    inversion F as [|? ? [Hg2 Hn2] _]; subst. destruct g2 as [|c g2]; [congruence|]. inversion Hg2 as [|? ? Hc _]; subst.
    specialize (IH ltac:(discriminate) false rest). rewrite (app_assoc (c :: g2)). change ((c :: g2) ++ List.concat gs) with (List.concat ((c :: g2) :: gs)). rewrite <- IH.
    assert (E : exists r, join [95%N] ((c :: g2) :: gs) ++ rest = c :: r) by (destruct gs; cbn [join app]; eauto).
    destruct E as [r E]. rewrite E. cbn [app drop_underscores]. change (95 =? chUND)%N with true. destruct (base_digit_dig c Hc) as [B _]. rewrite B. reflexivity.
Qed.
Lemma lower_digits s : digits s -> lower s = s.
Proof. intros H. apply lower_id, digits_fchar, H. Qed.
Lemma drop_nodig c p rest : (c =? chUND)%N = false -> base_digit 10 c = false -> drop_underscores 10 p (c :: rest) = c :: drop_underscores 10 false rest.
Proof. intros U B. cbn [drop_underscores]. rewrite U, B. reflexivity. Qed.
Lemma float_clean ip w ft fp et e : run 10 ip w -> fraction ft fp -> exponent et e ->
  exists ft' et', frac fp ft' /\ expo e et' /\ lower (drop_underscores 10 false (w ++ ft ++ et)) = ip ++ ft' ++ et' /\ (ft' ++ et' = [] -> ft ++ et = []) /\
    hd 0%N (ft' ++ et') = (if (hd 0 (ft ++ et) =? 69)%N then 101 else hd 0 (ft ++ et))%N.
Proof.
  intros Hi Hf He. destruct (run_dig _ _ _ Hi) as [Di Ni]. rewrite (drop_run _ _ Hi).
  assert (LA : forall a b, lower (a ++ b) = lower a ++ lower b) by (intros; apply map_app).
  assert (X : exists et', expo e et' /\ lower (drop_underscores 10 true et) = et' /\ (et' = [] -> et = []) /\ hd 0%N et' = (if (hd 0 et =? 69)%N then 101 else hd 0 et)%N /\ (hd 0%N et' = 101%N \/ et' = [])).
  { destruct He as [|x s neg ds y Hx Hs Hr]; [exists []; repeat split; auto; constructor|].
    destruct (run_dig _ _ _ Hr) as [Dd Nd]. pose proof (dig_digits _ Dd) as Dg. rewrite <- (dvalue_pos _ Dd).
    assert (Ex : (x =? chUND)%N = false /\ base_digit 10 x = false /\ lower_c x = 101%N) by (destruct Hx as [->| ->]; repeat split).
    destruct Ex as (U & B & Lx). cbn [app]. rewrite drop_nodig by assumption.
    assert (Hh : hd 0%N (101%N :: lower (drop_underscores 10 false (s ++ y))) = (if (hd 0 (x :: s ++ y) =? 69)%N then 101 else hd 0 (x :: s ++ y))%N) by (destruct Hx as [->| ->]; reflexivity).
    exists (101%N :: lower (drop_underscores 10 false (s ++ y))). split; [|split; [cbn [lower map]; rewrite Lx; reflexivity|split; [discriminate|split; [exact Hh|left; reflexivity]]]].
    clear Hh. pose proof (drop_run _ _ Hr false []) as Q. rewrite !app_nil_r in Q. cbn [drop_underscores] in Q. rewrite ?app_nil_r in Q.
    destruct Hs.
    - cbn [app]. rewrite Q, lower_digits by exact Dg.
      replace ((if false then -1 else 1) * Z.of_N (dvalue ds))%Z with (Z.of_N (dvalue ds)) by lia. apply ex_plain; assumption.
    - change ([43%N] ++ y) with (chPLUS :: y). rewrite drop_nodig by reflexivity. rewrite Q. cbn [lower map]. fold (lower ds). rewrite lower_digits by exact Dg.
      replace ((if false then -1 else 1) * Z.of_N (dvalue ds))%Z with (Z.of_N (dvalue ds)) by lia. apply ex_plus; assumption.
    - change ([45%N] ++ y) with (chMINUS :: y). rewrite drop_nodig by reflexivity. rewrite Q. cbn [lower map]. fold (lower ds). rewrite lower_digits by exact Dg.
      replace ((if true then -1 else 1) * Z.of_N (dvalue ds))%Z with (- Z.of_N (dvalue ds))%Z by lia. apply ex_minus; assumption. }
  destruct X as (et' & H1 & H2 & H3 & H4 & _). destruct Hf as [|fp y Hr].
  - exists [], et'. split; [constructor|]. split; [exact H1|]. cbn [app]. rewrite LA, H2, lower_digits by (apply dig_digits, Di). repeat split; assumption.
  - destruct (run_dig _ _ _ Hr) as [Dd Nd]. exists (chDOT :: fp), et'. split; [constructor; [apply dig_digits, Dd|exact Nd]|]. split; [exact H1|].
    rewrite <- app_assoc. change ([46%N] ++ y ++ et) with (chDOT :: (y ++ et)). rewrite drop_nodig by reflexivity. rewrite (drop_run _ _ Hr).
    rewrite LA. change (lower (chDOT :: (fp ++ drop_underscores 10 true et))) with (chDOT :: lower (fp ++ drop_underscores 10 true et)). rewrite LA, H2.
    rewrite !lower_digits by (apply dig_digits; assumption). repeat split; discriminate.
Qed.

(** The characters of a literal. *)
Definition nchar (c : char) : Prop := is_ascii_digit c = true \/ c = chUND \/ c = chDOT \/ c = 101%N \/ c = 69%N \/ c = chPLUS \/ c = chMINUS.
Lemma run_nchar ds w : run 10 ds w -> Forall nchar w.
Proof.
  intros H. destruct (run_und _ _ _ H) as [U _]. eapply Forall_impl; [|exact U]. intros c [D| ->]; [left; apply dig10_ascii, D|right; left; reflexivity].
Qed.
Lemma sign_nchar s neg : sign_says s neg -> Forall nchar s.
Proof. unfold nchar, chPLUS, chMINUS. destruct 1; [constructor|constructor; [auto 8|constructor]..]. Qed.
Lemma float_nchar ip w ft fp et e : run 10 ip w -> fraction ft fp -> exponent et e -> Forall nchar (w ++ ft ++ et).
Proof.
  intros Hi Hf He. apply Forall_app. split; [eapply run_nchar, Hi|]. apply Forall_app. split.
  - destruct Hf as [|ds y Hr]; [constructor|]. constructor; [unfold nchar, chDOT; auto|eapply run_nchar, Hr].
  - destruct He as [|x s neg ds y Hx Hs Hr]; [constructor|]. constructor; [unfold nchar; destruct Hx; auto 8|]. apply Forall_app. split; [eapply sign_nchar, Hs|eapply run_nchar, Hr].
Qed.
Lemma nchar_facts c : nchar c -> c <> chCOLON /\ c <> chLF /\ is_val_delim c = false.
Proof.
  intros [H|[H|[H|[H|[H|[H|H]]]]]]; [apply digit_range in H|subst c; repeat split; discriminate..].
  unfold chCOLON, chLF, is_val_delim, chSP, chTAB, chLF, chCR, chHASH, chCOMMA, chRBR, chRCB. lia.
Qed.
Lemma drop_digits_run w c rest : dig_und 10 w -> is_ascii_digit c = false -> c <> chMINUS -> match drop_while is_ascii_digit (w ++ c :: rest) with c :: _ => c <> chMINUS | [] => w ++ c :: rest <> [] end.
Proof.
  intros U Hd Hm. assert (G : match drop_while is_ascii_digit (w ++ c :: rest) with c :: _ => c <> chMINUS | [] => False end).
  { induction U as [|x w Hx U IH]; cbn [app drop_while]; [rewrite Hd; exact Hm|]. destruct (is_ascii_digit x) eqn:D; [exact IH|].
    destruct Hx as [Hx| ->]; [apply dig10_ascii in Hx; congruence|discriminate]. }
  destruct (drop_while _ _); [destruct G|exact G].
Qed.
Lemma float_head ft fp et e : fraction ft fp -> exponent et e -> ft ++ et <> [] -> exists c r, ft ++ et = c :: r /\ (c = chDOT \/ c = 101%N \/ (c = 69%N /\ ft = [] /\ hd 0%N et = 69%N)).
Proof.
  intros Hf He Hn. destruct Hf as [|ds y Hr]; [|cbn [app]; unfold chDOT; eauto]. destruct He as [|x s neg ds y Hx Hs Hr]; [exfalso; apply Hn; reflexivity|]. cbn [app hd]. destruct Hx as [->| ->]; eauto 8.
Qed.
Lemma float_reads w f : float_means w f -> exists sv t, reads_as w (IVal sv t) delim_tail /\ unwrap (IVal sv t) = Some (PFloat f) /\ scalar_string sv = w.
Proof.
  intros H. assert (A : number_token w /\ parse_number w = Some (SFloat f w)).
  { destruct H as [s neg ip w fp ft e et Hs Hi Hz Hf He Hne Hx|s neg Hs|s neg Hs].
    - assert (Fs : fsign neg s) by (destruct Hs; constructor). destruct (run_dig _ _ _ Hi) as [Di Ni]. destruct (run_und _ _ _ Hi) as [Ui Wi]. destruct (run_head _ _ _ Hi) as [Hh H1].
      destruct (float_head _ _ _ _ Hf He Hne) as (c & r & Ec & Hc). pose proof (float_nchar _ _ _ _ _ _ Hi Hf He) as Nc.
      assert (Hd0 : is_ascii_digit (hd 0%N ip) = true) by (destruct ip as [|a ip]; [congruence|]; inversion Di; apply dig10_ascii; assumption).
      assert (LC : lead_ok (w ++ ft ++ et)).
      { destruct w as [|a w]; [congruence|]. cbn [app lead_ok]. cbn [hd] in Hh. subst a. split; [exact Hd0|]. intros E0. destruct Hz as [Hz|Hz]; [congruence|].
        specialize (H1 Hz). destruct ip as [|b [|]]; try discriminate Hz. cbn [hd] in E0. subst b. injection H1 as ->. cbn [app]. rewrite Ec. unfold chDOT in Hc. destruct Hc as [->|[->|(-> & Hc)]]; auto. exfalso. apply Hx. split; [reflexivity|exact Hc]. }
      split.
      + destruct Fs; cbn [app]; [|apply token_signed; auto; eapply Forall_impl; [|exact Nc]; intros; apply nchar_facts; assumption..].
        intros strict n pre mk tail Ht. destruct w as [|a w]; [congruence|]. cbn [hd] in Hh. subst a.
        change (((hd 0%N ip :: w) ++ ft ++ et) ++ tail) with (hd 0%N ip :: ((w ++ ft ++ et) ++ tail)). rewrite pv_digit by exact Hd0.
        change (hd 0%N ip :: ((w ++ ft ++ et) ++ tail)) with (((hd 0%N ip :: w) ++ ft ++ et) ++ tail). rewrite digit_value; auto.
        * eapply Forall_impl; [|exact Nc]; intros; apply nchar_facts; assumption.
        * left. apply date_not_float.
          -- intros X. rewrite Forall_forall in Nc. apply Nc, nchar_facts in X. tauto.
          -- intros X. rewrite Forall_forall in Nc. apply Nc, nchar_facts in X. tauto.
          -- rewrite Ec. apply drop_digits_run; [exact Ui| |]; destruct Hc as [->|[->|(-> & Hc)]]; (reflexivity || discriminate).
      + destruct (float_clean _ _ _ _ _ _ Hi Hf He) as (ft' & et' & Hf' & He' & Ecl & Hne' & Hhd).
        assert (Hfe : ft' ++ et' <> []) by (intros X; apply Hne, Hne', X).
        pose proof (parse_float neg s ip fp ft' e et' Fs (dig_digits _ Di) Ni Hz Hf' He' Hfe) as P.
        rewrite (parse_number_num neg s _ Fs LC), Ecl.
        assert (LC' : lead_ok (ip ++ ft' ++ et')).
        { destruct ip as [|a ip]; [congruence|]. cbn [app lead_ok]. cbn [hd] in Hd0. split; [exact Hd0|]. intros ->. destruct Hz as [Hz|Hz]; [cbn in Hz; congruence|]. destruct ip; [|discriminate Hz]. cbn [app].
          destruct (ft' ++ et') as [|b x]; [congruence|]. cbn [hd] in Hhd. rewrite Ec in Hhd. cbn [hd] in Hhd. rewrite Hhd. unfold chDOT in Hc. destruct Hc as [->|[->|(-> & Hc)]]; auto. }
        rewrite (parse_number_num neg s _ Fs LC') in P.
        assert (Fc : Forall fchar (ip ++ ft' ++ et')) by (repeat (apply Forall_app; split); [apply digits_fchar, dig_digits, Di|eapply frac_fchar; eauto|eapply expo_fchar; eauto]).
        rewrite drop_und_id, (lower_id _ Fc) in P by (intros X; rewrite Forall_forall in Fc; apply Fc, fchar_facts in X; tauto).
        rewrite dvalue_pos in P.
        2: { apply Forall_app. split; [exact Di|]. destruct Hf as [|? ? Hr]; [constructor|]. apply (run_dig _ _ _ Hr). }
        destruct (num_val s (ip ++ ft' ++ et')) as [[z|g]|]; cbn [num_item] in P |- *; try discriminate P. injection P as P. rewrite P. reflexivity.
    - split; [apply special_token; destruct Hs; cbn; auto 8|destruct Hs; vm_compute; reflexivity].
    - split; [apply special_token; destruct Hs; cbn; auto 8|destruct Hs; vm_compute; reflexivity]. }
  destruct A as [T P]. exists (SFloat f w), default_trivia. split; [apply (number_token_reads w (SFloat f w)); assumption|]. split; reflexivity.
Qed.
