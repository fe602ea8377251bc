(** Floats: decimal float literals and the text of [item(x)] for a float (C36). *)
From Verif Require Import Base Source Utils Items Container Arrays Parser Api Lemmas Escape Strings StringRT StringApi Numbers PyVal.
From Coq Require Import ZifyBool ZifyNat ZifyN.
Open Scope nat_scope.

(** * Specification: a decimal float literal and its value *)
Definition digits (s : str) : Prop := Forall (fun c => is_ascii_digit c = true) s.
(** The value of the digits, most significant first. *)
Definition dvalue (s : str) : N := fold_left (fun a c => (a * 10 + (c - 48))%N) s 0%N.
(** [frac fp t]: [t] is empty (no fraction) or a point and the digits [fp]. *)
Inductive frac : str -> str -> Prop :=
  | fr_none : frac [] []
  | fr_some fp : digits fp -> fp <> [] -> frac fp (chDOT :: fp).
(** [expo e t]: [t] is empty ([e = 0]) or [e], an optional sign and digits. *)
Inductive expo : Z -> str -> Prop :=
  | ex_none : expo 0 []
  | ex_plain ed : digits ed -> ed <> [] -> expo (Z.of_N (dvalue ed)) (101%N :: ed)
  | ex_plus ed : digits ed -> ed <> [] -> expo (Z.of_N (dvalue ed)) (101%N :: chPLUS :: ed)
  | ex_minus ed : digits ed -> ed <> [] -> expo (- Z.of_N (dvalue ed))%Z (101%N :: chMINUS :: ed).
Inductive fsign : bool -> str -> Prop :=
  | fs_none : fsign false [] | fs_plus : fsign false [chPLUS] | fs_minus : fsign true [chMINUS].

(** * Proofs *)
Lemma digit_range c : is_ascii_digit c = true -> (48 <= c <= 57)%N.
Proof. unfold is_ascii_digit. lia. Qed.
Lemma drop_und_id b s : forall p, ~ In chUND s -> drop_underscores b p s = s.
Proof.
  induction s as [|c s IH]; intros p H; [reflexivity|]. cbn [drop_underscores]. assert (E : (c =? chUND)%N = false) by (apply N.eqb_neq; intros ->; apply H; left; reflexivity).
  rewrite E. cbn [andb]. f_equal. apply IH. intros X. apply H. right. exact X.
Qed.
(** The characters of a literal. *)
Definition fchar (c : char) : Prop := is_ascii_digit c = true \/ c = chDOT \/ c = 101%N \/ c = chPLUS \/ c = chMINUS.
Lemma digits_fchar s : digits s -> Forall fchar s.
Proof. apply Forall_impl. unfold fchar. auto. Qed.
Lemma frac_fchar fp t : frac fp t -> Forall fchar t.
Proof. intros [|fp' H _]; [constructor|]. constructor; [unfold fchar; auto|apply digits_fchar, H]. Qed.
Lemma expo_fchar e t : expo e t -> Forall fchar t.
Proof.
  intros [|ed H _|ed H _|ed H _]; [constructor| | | ].
  - constructor; [unfold fchar; auto 6|]. apply digits_fchar, H.
  - constructor; [unfold fchar; auto 6|]. constructor; [unfold fchar; auto 6|]. apply digits_fchar, H.
  - constructor; [unfold fchar; auto 6|]. constructor; [unfold fchar; auto 6|]. apply digits_fchar, H.
Qed.
Lemma fchar_facts c : fchar c -> (c <? 127)%N = true /\ c_isspace c = false /\ c <> chUND /\ c <> chCOLON /\ c <> chLF /\ lower_c c = c /\ is_val_delim c = false.
Proof.
  intros [H|[H|[H|[H|H]]]]; [apply digit_range in H|subst c; repeat split; try reflexivity; discriminate..].
  unfold c_isspace, chUND, chCOLON, chLF, lower_c, is_val_delim, chSP, chTAB, chLF, chCR, chHASH, chCOMMA, chRBR, chRCB.
  assert (E : ((65 <=? c) && (c <=? 90))%N = false) by lia. rewrite E. repeat split; try reflexivity; lia.
Qed.
Lemma lower_id s : Forall fchar s -> lower s = s.
Proof. induction 1 as [|c s H Hs IH]; [reflexivity|]. cbn [lower map]. fold (lower s). rewrite IH. destruct (fchar_facts c H) as (_ & _ & _ & _ & _ & -> & _). reflexivity. Qed.
Lemma digits_dig s : digits s -> dig 10 s.
Proof.
  apply Forall_impl. intros c H. unfold is_digit_of, hexval. rewrite H. apply digit_range in H. lia.
Qed.
Lemma take_digits ds r : digits ds -> match r with [] => True | c :: _ => is_ascii_digit c = false end ->
  take_while is_ascii_digit (ds ++ r) = ds /\ drop_while is_ascii_digit (ds ++ r) = r.
Proof. intros H Hr. apply take_while_app; [exact H|exact Hr]. Qed.
Lemma ed_all ed : digits ed -> all_digits ed = true.
Proof. intros H. unfold all_digits. apply forallb_forall. intros c Hc. unfold digits in H; rewrite Forall_forall in H. apply H, Hc. Qed.
Lemma head_not_digit fp ft e et : frac fp ft -> expo e et -> match ft ++ et with [] => True | c :: _ => is_ascii_digit c = false end.
Proof. intros [|fp' _ _] [|ed _ _|ed _ _|ed _ _]; cbn; auto. Qed.
Lemma expo_head e et : expo e et -> match et with [] => True | c :: _ => is_ascii_digit c = false end.
Proof. intros [|ed _ _|ed _ _|ed _ _]; cbn; auto. Qed.
Lemma lower_word s w : match s with c :: _ => is_ascii_digit c = true | [] => False end -> match w with c :: _ => (97 <= c)%N | [] => False end -> str_eqb (lower s) w = false.
Proof.
  destruct s as [|c s], w as [|d w]; try tauto. intros H H'. cbn [lower map str_eqb]. assert (E : (lower_c c =? d)%N = false); [|rewrite E; reflexivity].
  apply digit_range in H. unfold lower_c. assert (E : ((65 <=? c) && (c <=? 90))%N = false) by lia. rewrite E. lia.
Qed.
Lemma dec_value_eq s : dec_value s = dvalue s.
Proof. reflexivity. Qed.
Lemma float_unsigned_ok ip fp ft e et : digits ip -> ip <> [] -> frac fp ft -> expo e et ->
  float_unsigned (ip ++ ft ++ et) = Some (fun n => FDec n (dvalue (ip ++ fp)) (e - Z.of_nat (List.length fp))%Z).
Proof.
  intros Hi Hne Hf He. unfold float_unsigned. assert (Hd : match ip ++ ft ++ et with c :: _ => is_ascii_digit c = true | [] => False end) by (destruct ip; [congruence|inversion Hi; assumption]).
  rewrite !lower_word by (exact Hd || (vm_compute; lia || discriminate)). cbn [orb]. cbv zeta.
  destruct (take_digits ip (ft ++ et) Hi (head_not_digit _ _ _ _ Hf He)) as [-> ->].
  assert (Hlen : List.length ip <> 0) by (destruct ip; [congruence|discriminate]).
  assert (Tail : forall fp' (r2 : str), r2 = et -> fp' = fp ->
    (if Nat.eqb (List.length ip + List.length fp') 0 then None
    else
      let mant := dec_value (ip ++ fp') in
      let e0 := (- Z.of_nat (List.length fp'))%Z in
      match r2 with
      | [] => Some (fun n => FDec n mant e0)
      | c :: r =>
          if ((c =? 101) || (c =? 69))%N then
            let '(eneg, ed) := match r with
                               | d :: r' => if (d =? chMINUS)%N then (true, r')
                                            else if (d =? chPLUS)%N then (false, r') else (false, r)
                               | [] => (false, [])
                               end in
            match ed with
            | [] => None
            | _ => if all_digits ed
                   then let ev := Z.of_N (dec_value ed) in
                        Some (fun n => FDec n mant (e0 + (if eneg then - ev else ev))%Z)
                   else None
            end
          else None
      end) = Some (fun n => FDec n (dvalue (ip ++ fp)) (e - Z.of_nat (List.length fp))%Z)).
  { intros fp' r2 -> ->. destruct (Nat.eqb_spec (List.length ip + List.length fp) 0) as [C|C]; [lia|]. cbv zeta. clear Hd Hlen C Hf. destruct He as [|ed H Hn|ed H Hn|ed H Hn].
    - reflexivity.
    - change ((101 =? 101) || (101 =? 69))%N with true. cbv iota beta. destruct ed as [|d ed]; [congruence|]. pose proof H as H'. inversion H' as [|? ? Hd Hed]; subst. apply digit_range in Hd.
      assert (Q1 : (d =? chMINUS)%N = false) by (unfold chMINUS; lia). assert (Q2 : (d =? chPLUS)%N = false) by (unfold chPLUS; lia). rewrite Q1, Q2, (ed_all _ H). cbv zeta. rewrite Z.add_opp_l. reflexivity.
    - change ((101 =? 101) || (101 =? 69))%N with true. cbv iota beta. change (chPLUS =? chMINUS)%N with false. change (chPLUS =? chPLUS)%N with true. cbv iota beta. destruct ed as [|d ed]; [congruence|]. cbv iota beta. rewrite (ed_all _ H). cbv zeta. rewrite Z.add_opp_l. reflexivity.
    - change ((101 =? 101) || (101 =? 69))%N with true. cbv iota beta. change (chMINUS =? chMINUS)%N with true. cbv iota beta. destruct ed as [|d ed]; [congruence|]. cbv iota beta. rewrite (ed_all _ H). cbv zeta. rewrite Z.add_opp_l. reflexivity. }
  destruct Hf as [|fp' H Hn].
  - cbn [app]. destruct et as [|c r]; [exact (Tail [] [] eq_refl eq_refl)|]. destruct (N.eqb_spec c chDOT) as [->|N]; [exfalso; inversion He|]. exact (Tail [] (c :: r) eq_refl eq_refl).
  - cbn [app]. rewrite N.eqb_refl. destruct (take_digits fp' et H (expo_head _ _ He)) as [-> ->]. exact (Tail fp' et eq_refl eq_refl).
Qed.
Lemma int_digits_stop b s acc l : forall r c, s = r ++ c :: l -> digits r -> digit_in b c = None -> c <> chUND -> forall last, int_digits b s acc last = None.
Proof.
  intros r. revert s acc. induction r as [|d r IH]; intros s acc c -> Hr Hc Hu last; cbn [app int_digits].
  - apply N.eqb_neq in Hu. rewrite Hu, Hc. reflexivity.
  - inversion Hr; subst. assert (E : (d =? chUND)%N = false) by (match goal with H : is_ascii_digit d = true |- _ => apply digit_range in H end; unfold chUND; lia). rewrite E.
    destruct (digit_in b d); [|reflexivity]. eapply IH; eauto.
Qed.
Definition no_int (s : str) : Prop := exists r c l, s = r ++ c :: l /\ digits r /\ digit_in 10 c = None /\ c <> chUND.
Lemma no_int_body ip fp ft e et : digits ip -> frac fp ft -> expo e et -> ft ++ et <> [] -> no_int (ip ++ ft ++ et).
Proof.
  intros Hi Hf He Hne. destruct Hf as [|fp' H Hn]; [|exists ip, chDOT, (fp' ++ et); split; [reflexivity|]; split; [exact Hi|]; split; [reflexivity|discriminate]].
  destruct He as [|ed H Hn|ed H Hn|ed H Hn]; [exfalso; apply Hne; reflexivity| | | ]; cbn [app]; exists ip, 101%N; eexists; (split; [reflexivity|]; split; [exact Hi|]; split; [reflexivity|discriminate]).
Qed.
Lemma int_unsigned_none s : no_int s -> int_unsigned 10 s = None.
Proof.
  intros (r & c & l & E & H1 & H2 & H3). assert (G : int_digits 10 s 0 false = None) by (eapply int_digits_stop; eauto). unfold int_unsigned. destruct s as [|z [|p s]]; try exact G.
  change (10 =? 16)%N with false. change (10 =? 8)%N with false. change (10 =? 2)%N with false. cbn [andb orb]. rewrite andb_false_r. exact G.
Qed.
Lemma endswith_digit s c : is_ascii_digit c = true -> endswith (L ".") (s ++ [c]) = false.
Proof.
  intros H. unfold endswith. rewrite rev_app_distr. change (rev (L ".")) with [46%N]. cbn [rev app startswith]. apply digit_range in H. assert (E : (46 =? c)%N = false) by lia. rewrite E. reflexivity.
Qed.
Definition ends_digit (s : str) : Prop := exists r c, s = r ++ [c] /\ is_ascii_digit c = true.
Lemma ends_app a s : ends_digit s -> ends_digit (a ++ s).
Proof. intros (r & c & -> & H). exists (a ++ r), c. rewrite app_assoc. auto. Qed.
Lemma digits_end s : digits s -> s <> [] -> ends_digit s.
Proof.
  intros H Hn. destruct (exists_last Hn) as (r & c & ->). exists r, c. split; [reflexivity|]. apply Forall_app in H as [_ H]. inversion H; assumption.
Qed.
Lemma ends_digit_dot s : ends_digit s -> endswith (L ".") s = false.
Proof. intros (r & c & -> & H). apply endswith_digit, H. Qed.
Lemma before_e a s : ~ In 101%N a -> before_char 101 (a ++ s) = a ++ before_char 101 s.
Proof.
  unfold before_char. induction a as [|c a IH]; intros H; [reflexivity|]. cbn [app take_while]. destruct (N.eqb_spec c 101) as [->|N]; [exfalso; apply H; left; reflexivity|]. cbn [negb]. f_equal. apply IH. intros X. apply H. right. exact X.
Qed.
Lemma digits_no_e s : digits s -> ~ In 101%N s.
Proof. intros H X. unfold digits in H. rewrite Forall_forall in H. apply H, digit_range in X. lia. Qed.
(** [item], [sign] included, is read as a float. *)
Lemma parse_float neg sg ip fp ft e et : fsign neg sg -> digits ip -> ip <> [] -> hd 0%N ip <> 48%N \/ List.length ip = 1 -> frac fp ft -> expo e et -> ft ++ et <> [] ->
  parse_number (sg ++ ip ++ ft ++ et) = Some (SFloat (FDec neg (dvalue (ip ++ fp)) (e - Z.of_nat (List.length fp))%Z) (sg ++ ip ++ ft ++ et)).
Proof.
  intros Hsg Hi Hne Hz Hf He Hfe. set (w := ip ++ ft ++ et). pose proof (float_unsigned_ok ip fp ft e et Hi Hne Hf He) as HF. fold w in HF.
  assert (Hw : Forall fchar w) by (unfold w; repeat (apply Forall_app; split); [apply digits_fchar, Hi|eapply frac_fchar; eauto|eapply expo_fchar; eauto]).
  assert (NI : no_int w) by (eapply no_int_body; eauto).
  destruct ip as [|c ip]; [congruence|]. pose proof Hi as Hi'. inversion Hi' as [|? ? Hc Hi2]; subst. pose proof (digit_range _ Hc) as Rc. cbn [hd List.length] in Hz.
  unfold parse_number. assert (Hsplit : (match sg ++ w with
                    | c :: r => if (c =? chPLUS)%N || (c =? chMINUS)%N then ([c], r) else ([], sg ++ w)
                    | [] => ([], []) end) = (sg, w)).
  { destruct Hsg; cbn [app]; try reflexivity. unfold w. cbn [app]. assert (Q1 : ((c =? chPLUS) || (c =? chMINUS))%N = false) by (unfold chPLUS, chMINUS; lia). rewrite Q1. reflexivity. }
  rewrite Hsplit. cbv zeta.
  assert (Hx : forall x, (x = 111 \/ x = 120 \/ x = 98)%N -> startswith [48; x]%N w = false).
  { intros x Hx. unfold w. cbn [app startswith]. destruct (N.eqb_spec 48 c) as [<-|N]; [|reflexivity]. destruct Hz as [Hz|Hz]; [congruence|]. destruct ip; [|discriminate]. cbn [app andb].
    destruct Hf as [|fp' H Hn]; [destruct He as [|ed H Hn|ed H Hn|ed H Hn]; [exfalso; apply Hfe; reflexivity| | | ]|]; cbn [app]; destruct Hx as [->|[->| ->]]; reflexivity. }
  assert (Hlead : startswith (L "0") w && negb (starts_any [L "0."; L "0o"; L "0x"; L "0b"; L "0e"] w) = false).
  { unfold w. cbn [app]. change (L "0") with [48%N]. cbn [startswith]. destruct (N.eqb_spec 48 c) as [<-|N]; [|reflexivity]. destruct Hz as [Hz|Hz]; [congruence|]. destruct ip; [|discriminate]. cbn [app andb].
    destruct Hf as [|fp' H Hn]; [destruct He as [|ed H Hn|ed H Hn|ed H Hn]; [exfalso; apply Hfe; reflexivity| | | ]|]; reflexivity. }
  assert (Hdot : startswith (L ".") w = false).
  { unfold w. cbn [app]. change (L ".") with [46%N]. cbn [startswith]. assert (Q1 : (46 =? c)%N = false) by lia. rewrite Q1. reflexivity. }
  rewrite Hlead, Hdot, andb_false_r. cbn [orb]. rewrite andb_false_r.
  unfold starts_any. cbn [existsb]. change (L "0b") with [48; 98]%N. change (L "0o") with [48; 111]%N. change (L "0x") with [48; 120]%N. rewrite !Hx by auto. cbn [orb andb].
  assert (Hu : ~ In chUND w) by (intros X; rewrite Forall_forall in Hw; apply Hw, fchar_facts in X; tauto).
  rewrite drop_und_id by exact Hu. rewrite (lower_id _ Hw), inb_false by exact Hu.
  assert (He1 : ends_digit w).
  { unfold w. destruct He as [|ed H Hn|ed H Hn|ed H Hn].
    - rewrite app_nil_r. destruct Hf as [|fp' H Hn]; [rewrite app_nil_r; apply digits_end; assumption|]. apply ends_app. exact (ends_app [chDOT] fp' (digits_end _ H Hn)).
    - apply ends_app, ends_app. exact (ends_app [101%N] ed (digits_end _ H Hn)).
    - apply ends_app, ends_app. exact (ends_app [101%N; chPLUS] ed (digits_end _ H Hn)).
    - apply ends_app, ends_app. exact (ends_app [101%N; chMINUS] ed (digits_end _ H Hn)). }
  assert (He2 : ends_digit (before_char 101 w)).
  { assert (Q : before_char 101 et = []) by (destruct He; reflexivity). unfold w. rewrite before_e by (apply digits_no_e, Hi). destruct Hf as [|fp' H Hn].
    - cbn [app]. rewrite Q, app_nil_r. apply digits_end; assumption.
    - apply ends_app. rewrite before_e by (intros [X|X]; [discriminate|revert X; apply digits_no_e, H]). rewrite Q, app_nil_r. exact (ends_app [chDOT] fp' (digits_end _ H Hn)). }
  rewrite (ends_digit_dot _ He1), (ends_digit_dot _ He2), andb_false_r. cbn [orb].
  assert (Ha : Forall (fun c => (c <? 127)%N = true) (sg ++ w)) by (apply Forall_app; split; [destruct Hsg; repeat constructor|eapply Forall_impl; [|exact Hw]; intros; apply fchar_facts; assumption]).
  assert (Hs : Forall (fun c => c_isspace c = false) (sg ++ w)) by (apply Forall_app; split; [destruct Hsg; repeat constructor|eapply Forall_impl; [|exact Hw]; intros; apply fchar_facts; assumption]).
  assert (P : py_int (sg ++ w) 10 = None).
  { unfold py_int. rewrite to_ascii_id, strip_id by assumption. destruct Hsg; cbn [app].
    - unfold w at 1. cbn [app]. assert (Q1 : (c =? chMINUS)%N = false) by (unfold chMINUS; lia). assert (Q2 : (c =? chPLUS)%N = false) by (unfold chPLUS; lia). rewrite Q1, Q2. rewrite (int_unsigned_none w NI). reflexivity.
    - change (chPLUS =? chMINUS)%N with false. rewrite N.eqb_refl, (int_unsigned_none w NI). reflexivity.
    - rewrite N.eqb_refl, (int_unsigned_none w NI). reflexivity. }
  rewrite P. unfold py_float. rewrite to_ascii_id, strip_id by assumption. destruct Hsg; cbn [app].
  - unfold w at 1. cbn [app]. assert (Q1 : (c =? chMINUS)%N = false) by (unfold chMINUS; lia). assert (Q2 : (c =? chPLUS)%N = false) by (unfold chPLUS; lia). rewrite Q1, Q2, HF. reflexivity.
  - change (chPLUS =? chMINUS)%N with false. rewrite N.eqb_refl, HF. reflexivity.
  - rewrite N.eqb_refl, HF. reflexivity.
Qed.
Lemma date_not_float s : ~ In chCOLON s -> ~ In chLF s -> match drop_while is_ascii_digit s with c :: _ => c <> chMINUS | [] => s <> [] end -> loose_match s = None.
Proof.
  intros H1 H2 H3. unfold loose_match, m_date. destruct (take_while is_ascii_digit s) eqn:T.
  - rewrite m_loose_none by exact H1. destruct s as [|x [|y s]]; [exfalso; cbn in H3; congruence| |reflexivity]. cbn [re_end]. destruct (N.eqb_spec x chLF); [subst; exfalso; apply H2; left; reflexivity|reflexivity].
  - assert (Q : lit chMINUS (drop_while is_ascii_digit s) = None).
    { destruct (drop_while is_ascii_digit s) as [|x r]; [reflexivity|]. cbn. destruct (N.eqb_spec x chMINUS); [contradiction|reflexivity]. }
    rewrite Q. rewrite m_loose_none by exact H1. destruct s as [|x [|y s]]; [discriminate| |reflexivity]. cbn [re_end]. destruct (N.eqb_spec x chLF); [subst; exfalso; apply H2; left; reflexivity|reflexivity].
Qed.
Lemma float_token neg sg ip fp ft e et : fsign neg sg -> digits ip -> ip <> [] -> frac fp ft -> expo e et -> number_token (sg ++ ip ++ ft ++ et).
Proof.
  intros Hsg Hi Hne Hf He. set (w := ip ++ ft ++ et).
  assert (Hw : Forall fchar w) by (unfold w; repeat (apply Forall_app; split); [apply digits_fchar, Hi|eapply frac_fchar; eauto|eapply expo_fchar; eauto]).
  assert (Hd : no_delim w) by (eapply Forall_impl; [|exact Hw]; intros c Hc; apply fchar_facts, Hc).
  destruct Hsg; cbn [app]; [|apply token_signed; auto..].
  intros strict n pre mk tail Ht. destruct ip as [|c ip]; [congruence|]. inversion Hi as [|? ? Hc Hi2]; subst.
  change (w ++ tail) with (c :: ((ip ++ ft ++ et) ++ tail)). rewrite pv_digit by exact Hc. change (c :: ((ip ++ ft ++ et) ++ tail)) with (w ++ tail). rewrite digit_value; auto.
  left. apply date_not_float.
  - intros X. rewrite Forall_forall in Hw. apply Hw, fchar_facts in X. tauto.
  - intros X. rewrite Forall_forall in Hw. apply Hw, fchar_facts in X. tauto.
  - unfold w. destruct (take_digits (c :: ip) (ft ++ et) Hi (head_not_digit _ _ _ _ Hf He)) as [_ ->].
    destruct Hf as [|fp' H Hn]; [destruct He as [|ed H Hn|ed H Hn|ed H Hn]|]; cbn [app]; discriminate.
Qed.
Lemma special_token w : In w special_floats -> number_token w.
Proof.
  intros H.
  assert (S : forall b, (b = L "inf" \/ b = L "nan") -> number_token b).
  { intros b Hb strict n pre mk tail Ht. assert (Hd : no_delim b) by (destruct Hb as [->| ->]; repeat constructor). unfold number_result. rewrite <- signed_value by assumption. cbn [parse_value].
    unfold bind at 1, mark, set_mark. cbn [p_pre p_rest]. unfold bind at 1, current, cur. cbn [p_rest].
    assert (P : existsb (str_eqb (peek_loop 4 (b ++ tail))) special_floats = true).
    { destruct Hb as [->| ->]; (destruct tail as [|c tail]; [reflexivity|]); cbn [L list_ascii_of_string map app peek_loop]; cbn in Ht; rewrite Ht; reflexivity. }
    destruct Hb as [->| ->]; [change (L "inf") with [105; 110; 102]%N in *|change (L "nan") with [110; 97; 110]%N in *]; cbn [app] in P |- *;
      repeat (match goal with |- context [(?a =? ?b)%N] => change (a =? b)%N with false end); cbv iota beta; unfold bind at 1, peek; cbn [p_rest]; rewrite P; reflexivity. }
  unfold special_floats in H. cbn [In] in H. destruct H as [<-|[<-|[<-|[<-|[<-|[<-|[]]]]]]]; try (apply S; auto; fail).
  - apply (token_signed chPLUS (L "inf")); [auto|repeat constructor].
  - apply (token_signed chMINUS (L "inf")); [auto|repeat constructor].
  - apply (token_signed chPLUS (L "nan")); [auto|repeat constructor].
  - apply (token_signed chMINUS (L "nan")); [auto|repeat constructor].
Qed.

(** * The text of a float *)
Lemma dec_N_digits m : digits (dec_N m) /\ dec_N m <> [] /\ dvalue (dec_N m) = m /\ (m <> 0%N -> hd 0%N (dec_N m) <> 48%N).
Proof.
  destruct (dec_N_spec m) as (d & r & -> & Hd & Hp & Hz & _).
  assert (Hg : digits (d :: r)) by (eapply Forall_impl; [|exact Hd]; intros c; apply dig10_ascii). split; [exact Hg|]. split; [discriminate|]. split; [|intros H; apply Hz; lia].
  rewrite <- Hp. unfold dvalue, positional. generalize 0%N. clear -Hg. induction Hg as [|c s Hc Hs IH]; intros a; [reflexivity|]. cbn [fold_left]. rewrite IH. unfold hexval. rewrite Hc. reflexivity.
Qed.
Lemma dvalue_app a b : dvalue (a ++ b) = (dvalue a * 10 ^ N.of_nat (List.length b) + dvalue b)%N.
Proof.
  unfold dvalue. rewrite fold_left_app. generalize (fold_left (fun a c => (a * 10 + (c - 48))%N) a 0%N). intros x. revert x. induction b as [|c b IH] using rev_ind; intros x.
  - cbn. lia.
  - rewrite !fold_left_app. cbn [fold_left]. rewrite IH, app_length. cbn [List.length]. rewrite Nat.add_1_r, Nat2N.inj_succ, N.pow_succ_r'. lia.
Qed.
Lemma dvalue_zeros k : dvalue (repeat 48%N k) = 0%N.
Proof. induction k as [|k IH]; [reflexivity|]. unfold dvalue in *. cbn [repeat fold_left]. exact IH. Qed.
Lemma digits_zeros k : digits (repeat 48%N k).
Proof. induction k; [constructor|]. constructor; [reflexivity|assumption]. Qed.
Lemma exp_text_expo e : expo e (101%N :: exp_text e).
Proof.
  unfold exp_text. destruct (dec_N_digits (Z.abs_N e)) as (Hd & Hn & Hv & _). set (ds := match dec_N (Z.abs_N e) with [_] => _ | _ => _ end).
  assert (Q : digits ds /\ ds <> [] /\ dvalue ds = Z.abs_N e).
  { subst ds. destruct (dec_N (Z.abs_N e)) as [|a [|b r]]; [congruence| |auto]. split; [constructor; [reflexivity|exact Hd]|]. split; [discriminate|]. rewrite <- Hv. reflexivity. }
  clearbody ds. destruct Q as (Q1 & Q2 & Q3). destruct (Z.ltb_spec e 0) as [C|C]; cbn [app].
  - replace e with (- Z.of_N (dvalue ds))%Z by lia. constructor; assumption.
  - replace e with (Z.of_N (dvalue ds))%Z at 1 by lia. constructor; assumption.
Qed.
Lemma hd_app_ne {A} (d : A) a b : a <> [] -> hd d (a ++ b) = hd d a.
Proof. destruct a; [congruence|reflexivity]. Qed.
(** The unsigned text of a float is a float literal of its value. *)
Lemma float_digits_shape m e : exists ip fp ft e' et, float_digits m e = ip ++ ft ++ et /\ digits ip /\ ip <> [] /\ (hd 0%N ip <> 48%N \/ List.length ip = 1) /\ frac fp ft /\ expo e' et /\ ft ++ et <> []
  /\ forall neg, feq (FDec neg m e) (FDec neg (dvalue (ip ++ fp)) (e' - Z.of_nat (List.length fp))%Z).
Proof.
  unfold float_digits. destruct (dec_N_digits m) as (Hd & Hn & Hv & Hz). set (ds := dec_N m) in *. clearbody ds. cbv zeta. destruct (N.eqb_spec m 0) as [->|Hm].
  { exists [48%N], [48%N], [chDOT; 48%N], 0%Z, []. repeat split; try discriminate; auto; try (constructor; [reflexivity|constructor]).
    - constructor; [constructor; [reflexivity|constructor]|discriminate].
    - constructor.
    - intros neg. constructor. }
  specialize (Hz Hm). set (n := List.length ds) in *. assert (Hn' : 0 < n) by (subst n; destruct ds; [congruence|cbn; lia]).
  destruct ((-4 <? Z.of_nat n + e)%Z && (Z.of_nat n + e <=? 16)%Z).
  - destruct (Z.leb_spec (Z.of_nat n + e) 0) as [C|C].
    + set (k := Z.to_nat (- (Z.of_nat n + e))). assert (Hk : Z.of_nat k = (- (Z.of_nat n + e))%Z) by (subst k; lia). clearbody k.
      exists [48%N], (repeat 48%N k ++ ds), (chDOT :: repeat 48%N k ++ ds), 0%Z, []. split; [rewrite app_nil_r; reflexivity|]. split; [constructor; [reflexivity|constructor]|]. split; [discriminate|].
      split; [right; reflexivity|]. split; [constructor; [apply Forall_app; split; [apply digits_zeros|exact Hd]|destruct ds; [congruence|intros X; destruct k; discriminate]]|].
      split; [constructor|]. split; [discriminate|]. intros neg.
      replace (dvalue ([48%N] ++ repeat 48%N k ++ ds)) with m by (rewrite !dvalue_app, dvalue_zeros, Hv; change (dvalue [48%N]) with 0%N; lia).
      rewrite app_length, repeat_length. fold n. replace (0 - Z.of_nat (k + n))%Z with e by lia. constructor.
    + destruct (Z.leb_spec (Z.of_nat n) (Z.of_nat n + e)) as [D|D].
      * set (k := Z.to_nat (Z.of_nat n + e - Z.of_nat n)). assert (Hk : Z.of_nat k = e) by (subst k; lia). clearbody k.
        exists (ds ++ repeat 48%N k), [48%N], [chDOT; 48%N], 0%Z, []. split; [rewrite <- app_assoc; reflexivity|]. split; [apply Forall_app; split; [exact Hd|apply digits_zeros]|].
        split; [destruct ds; [congruence|discriminate]|]. split; [left; rewrite hd_app_ne by exact Hn; exact Hz|]. split; [constructor; [constructor; [reflexivity|constructor]|discriminate]|].
        split; [constructor|]. split; [discriminate|]. intros neg. rewrite !dvalue_app, dvalue_zeros, repeat_length. change (dvalue [48%N]) with 0%N. cbn [List.length]. rewrite Hv.
        replace ((m * 10 ^ N.of_nat k + 0) * 10 ^ N.of_nat 1 + 0)%N with (m * 10 ^ (N.of_nat (S k)))%N by (rewrite Nat2N.inj_succ, N.pow_succ_r'; change (10 ^ N.of_nat 1)%N with 10%N; lia).
        replace e with ((0 - Z.of_nat 1) + Z.of_N (N.of_nat (S k)))%Z by lia. constructor.
      * set (k := Z.to_nat (Z.of_nat n + e)). assert (Hk : Z.of_nat k = (Z.of_nat n + e)%Z) by (subst k; lia). clearbody k. assert (Hk2 : 0 < k < n) by lia.
        assert (Hsk : List.length (skipn k ds) = n - k) by (rewrite skipn_length; reflexivity). assert (Hfk : List.length (firstn k ds) = k) by (rewrite firstn_length_le; [reflexivity|fold n; lia]).
        exists (firstn k ds), (skipn k ds), (chDOT :: skipn k ds), 0%Z, []. assert (Hds := Hd). rewrite <- (firstn_skipn k ds) in Hds. apply Forall_app in Hds as [D1 D2].
        split; [rewrite app_nil_r; reflexivity|]. split; [exact D1|]. split; [intros X; rewrite X in Hfk; cbn in Hfk; lia|].
        split; [left; rewrite <- (hd_app_ne 0%N (firstn k ds) (skipn k ds)) by (intros X; rewrite X in Hfk; cbn in Hfk; lia); rewrite firstn_skipn; exact Hz|].
        split; [constructor; [exact D2|intros X; rewrite X in Hsk; cbn in Hsk; lia]|]. split; [constructor|]. split; [discriminate|]. intros neg. rewrite firstn_skipn, Hv, Hsk.
        replace (0 - Z.of_nat (n - k))%Z with e by lia. constructor.
  - pose proof (exp_text_expo (Z.of_nat n + e - 1)) as Hx. destruct ds as [|d [|d' r]]; [congruence| |].
    + exists [d], [], [], (Z.of_nat n + e - 1)%Z, (101%N :: exp_text (Z.of_nat n + e - 1)). split; [reflexivity|]. split; [exact Hd|]. split; [discriminate|]. split; [right; reflexivity|].
      split; [constructor|]. split; [exact Hx|]. split; [discriminate|]. intros neg. rewrite app_nil_r, Hv. subst n. cbn [List.length]. replace (Z.of_nat 1 + e - 1 - Z.of_nat 0)%Z with e by lia. constructor.
    + inversion Hd as [|? ? D1 D2]; subst. exists [d], (d' :: r), (chDOT :: d' :: r), (Z.of_nat n + e - 1)%Z, (101%N :: exp_text (Z.of_nat n + e - 1)). split; [reflexivity|].
      split; [constructor; [exact D1|constructor]|]. split; [discriminate|]. split; [right; reflexivity|]. split; [constructor; [exact D2|discriminate]|]. split; [exact Hx|]. split; [discriminate|]. intros neg.
      cbn [app]. subst n. cbn [List.length]. replace (Z.of_nat (S (S (List.length r))) + e - 1 - Z.of_nat (S (List.length r)))%Z with e by lia. constructor.
Qed.
(** [t] is the text of a value equal to [f], as the whole text or followed by a
    delimiter. *)
Definition float_ok (f : fval) (w : str) : Prop :=
  exists g, feq f g /\ value_of w = Ok (scalar_item (SFloat g w)) /\ reads_as w (scalar_item (SFloat g w)) delim_tail.
Lemma float_ok_of f g w : number_token w -> parse_number w = Some (SFloat g w) -> feq f g -> float_ok f w.
Proof. intros H1 H2 H3. exists g. split; [exact H3|]. split; [apply number_token_value; assumption|apply number_token_reads; assumption]. Qed.
Theorem float_text_ok f : float_ok f (float_text f).
Proof.
  destruct f as [neg m e|neg|neg]; cbn [float_text].
  - destruct (float_digits_shape m e) as (ip & fp & ft & e' & et & -> & H1 & H2 & H3 & H4 & H5 & H6 & H7). set (sg := if neg then [chMINUS] else []).
    assert (Hs : fsign neg sg) by (subst sg; destruct neg; constructor). eapply float_ok_of; [eapply float_token; eauto|eapply parse_float; eauto|apply H7].
  - eapply float_ok_of; [apply special_token; destruct neg; [right; left|right; right; left]; reflexivity|destruct neg; reflexivity|constructor].
  - eapply float_ok_of; [apply special_token; do 5 right; left; reflexivity|reflexivity|constructor].
Qed.
(** A literal with a point or an exponent. *)
Theorem float_literal_ok neg sg ip fp ft e et : fsign neg sg -> digits ip -> ip <> [] -> hd 0%N ip <> 48%N \/ List.length ip = 1 -> frac fp ft -> expo e et -> ft ++ et <> [] ->
  value_of (sg ++ ip ++ ft ++ et) = Ok (scalar_item (SFloat (FDec neg (dvalue (ip ++ fp)) (e - Z.of_nat (List.length fp))%Z) (sg ++ ip ++ ft ++ et))).
Proof. intros. apply number_token_value; [eapply float_token; eauto|eapply parse_float; eauto]. Qed.
