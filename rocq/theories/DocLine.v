(** DocLine: the lines of a TOML document read one by one (C40). *)
From Verif Require Import Base Source Utils Items Container Arrays Parser Api Lemmas Escape Strings StringRT StringApi Numbers Floats Dates Keys Reader Consist OMap ContOps Wf Fuel FuelParse Mono Text Render TextValue TextParse ListSpec ArrayLemmas ItemInd PyVal PyItem ItemConv Unwrap DumpText DumpCont DumpValue DumpHead DumpChain DumpDoc DumpTop Grammar Meaning Denote Lines Document CompStr CompNum CompDate CompKey Snug CompValue Neat Ends.
From Coq Require Import ZifyBool ZifyNat ZifyN.
Open Scope nat_scope.

(** * The rest of a line *)
Lemma adv_all p w pre mk r : Forall (fun c => p c = true) w -> match r with c :: _ => p c = false | [] => True end -> adv_while p (mkSt pre (w ++ r) mk) = mkSt (pre ++ w) r mk.
Proof.
  intros Hw Hr. unfold adv_while. cbn [p_pre p_rest p_mark]. destruct (take_while_app p w r Hw) as [-> ->]; [|reflexivity]. destruct r; auto.
Qed.
Lemma blank_is_blank w : Grammar.blanks w -> Forall (fun c => is_blank c = true) w.
Proof. apply Forall_impl. intros c [->| ->]; reflexivity. Qed.
Lemma blank_is_sp w : Grammar.blanks w -> Forall (fun c => is_spaces c = true) w.
Proof. apply Forall_impl. intros c [->| ->]; reflexivity. Qed.
Lemma trail_end z e w mk pre : line_end z e -> Grammar.blanks w -> exists mk', parse_trail (mkSt pre (w ++ e ++ z) mk) = (Ok (skipn mk (pre ++ w ++ e)), mkSt (pre ++ w ++ e) z mk').
Proof.
  intros He Hw. apply blank_is_sp in Hw. exists mk. unfold parse_trail. unfold bind at 1, adv_whileM.
  destruct He as [->|[->|[-> ->]]]; cbn [app].
  - rewrite adv_all by (auto; reflexivity). unfold bind at 1, current at 1, cur. cbn [p_rest]. change (10 =? chCR)%N with false. cbv iota. unfold bind at 1, ret at 1. unfold bind at 1, current, cur. cbn [p_rest].
    change (10 =? chLF)%N with true. cbv iota. unfold bind at 1. rewrite incM_st. unfold extractM, extract. cbn [p_mark p_pre]. rewrite <- app_assoc. reflexivity.
  - rewrite adv_all by (auto; reflexivity). unfold bind at 1, current at 1, cur. cbn [p_rest]. change (13 =? chCR)%N with true. cbv iota. unfold bind at 1. rewrite incM_st. unfold bind at 1, current, cur. cbn [p_rest].
    change (10 =? chLF)%N with true. cbv iota. unfold bind at 1. rewrite incM_st. unfold extractM, extract. cbn [p_mark p_pre]. rewrite <- !app_assoc. reflexivity.
  - rewrite app_nil_r. rewrite <- (app_nil_r w) at 1. rewrite adv_all by auto. reflexivity.
Qed.
Lemma trail_cr z pre mk : exists mk', parse_trail (mkSt pre (10%N :: z) mk) = (Ok (skipn mk (pre ++ [10%N])), mkSt (pre ++ [10%N]) z mk').
Proof. destruct (trail_end z [10%N] [] mk pre) as [mk' E]; [left; reflexivity|constructor|]. exists mk'. exact E. Qed.
Lemma nl_head z e : line_end z e -> match e ++ z with c :: _ => newline_c c | [] => True end.
Proof. intros [->|[->|[-> ->]]]; cbn; unfold newline_c; auto. Qed.
(** Blanks before a line end. *)
Lemma comment_trail_void z b e pre mk : Grammar.blanks b -> line_end z e ->
  exists mk', parse_comment_trail true (mkSt pre (b ++ e ++ z) mk) = (Ok ([], [], b ++ e), mkSt (pre ++ b ++ e) z mk').
Proof.
  intros Hb He. destruct (b ++ e ++ z) as [|c0 r0] eqn:E0.
  { apply app_eq_nil in E0 as [-> E0]. apply app_eq_nil in E0 as [-> ->]. exists mk. rewrite !app_nil_r. reflexivity. }
  rewrite <- E0. unfold parse_comment_trail. unfold bind at 1, endM, at_end. cbn [p_rest]. rewrite E0. rewrite <- E0. unfold bind at 1, mark, set_mark. cbn [p_pre p_rest]. unfold bind at 1, adv_whileM at 1.
  destruct He as [->|[->|[-> ->]]].
  - cbn [app]. rewrite adv_all by (auto using blank_is_blank; reflexivity). unfold bind at 1. cbn [p_rest]. unfold bind at 1, current, cur. cbn [p_rest]. change (false || (10 =? chLF)%N) with true. cbv iota.
    unfold bind at 1, ret at 1. unfold bind at 1. destruct (trail_cr z (pre ++ b) (List.length pre)) as [mk' ->]. exists mk'. unfold ret. rewrite <- app_assoc, skipn_length_app. reflexivity.
  - replace (b ++ [13%N; 10%N] ++ z) with ((b ++ [13%N]) ++ 10%N :: z) by (rewrite <- app_assoc; reflexivity).
    rewrite adv_all; [|apply Forall_app; split; [apply blank_is_blank, Hb|repeat constructor]|reflexivity]. unfold bind at 1. cbn [p_rest]. unfold bind at 1, current, cur. cbn [p_rest]. change (false || (10 =? chLF)%N) with true. cbv iota.
    unfold bind at 1, ret at 1. unfold bind at 1. destruct (trail_cr z (pre ++ b ++ [13%N]) (List.length pre)) as [mk' ->]. exists mk'. unfold ret. rewrite <- !app_assoc, skipn_length_app. reflexivity.
  - cbn [app]. rewrite adv_all by (auto using blank_is_blank). unfold bind at 1. cbn [p_rest]. unfold bind at 1, current, cur. cbn [p_rest orb]. unfold bind at 1, ret at 1. unfold bind at 1.
    destruct (trail_end [] [] [] (List.length pre) (pre ++ b)) as [mk' E]; [right; right; auto|constructor|]. cbn [app] in E. rewrite app_nil_r in E. rewrite E. exists mk'. unfold ret. rewrite app_nil_r, skipn_length_app. reflexivity.
Qed.
Lemma comment_trail_comment z b k e pre mk : Grammar.blanks b -> comment k -> line_end z e ->
  exists mk', parse_comment_trail true (mkSt pre (b ++ k ++ e ++ z) mk) = (Ok (b, k, e), mkSt (pre ++ b ++ k ++ e) z mk').
Proof.
  intros Hb (u & -> & Hu) He. unfold parse_comment_trail. unfold bind at 1, endM, at_end. cbn [p_rest].
  replace (match b ++ (35%N :: u) ++ e ++ z with [] => true | _ => false end) with false by (destruct b; reflexivity).
  unfold bind at 1, mark, set_mark. cbn [p_pre p_rest]. unfold bind at 1, adv_whileM at 1. cbn [app]. rewrite adv_all by (auto using blank_is_blank; reflexivity).
  unfold bind at 1. cbn [p_rest]. unfold bind at 1, current at 1, cur. cbn [p_rest]. change (false || (35 =? chLF)%N) with false. change (35 =? chHASH)%N with true. cbv iota.
  unfold bind at 1. unfold bind at 1, extractM at 1, extract. cbn [p_mark p_pre]. rewrite skipn_length_app. unfold bind at 1, set_mark. cbn [p_pre p_rest]. unfold bind at 1. rewrite incM_st.
  unfold bind at 1, adv_whileM at 1. pose proof (nl_head z e He) as Hh. rewrite adv_all.
  2: { eapply Forall_impl; [|exact Hu]. intros x Hx. unfold control_c in Hx. unfold is_nl, bad_comment_char, chLF, chCR, chTAB. lia. }
  2: { destruct (e ++ z) as [|c r]; [exact I|]. destruct Hh as [->| ->]; reflexivity. }
  unfold bind at 1. cbn [p_rest]. unfold bind at 1, current at 1, cur. cbn [p_rest].
  assert (X : (match e ++ z with [] => true | _ :: _ => false end || is_nl match e ++ z with [] => chNUL | c :: _ => c end) = true).
  { destruct (e ++ z) as [|c r]; [reflexivity|]. destruct Hh as [->| ->]; reflexivity. }
  rewrite X. unfold bind at 1, ret at 1. unfold bind at 1, extractM at 1, extract. cbn [p_mark p_pre]. rewrite <- !app_assoc. cbn [app]. rewrite app_assoc, skipn_length_app.
  unfold bind at 1, mark, set_mark. cbn [p_pre p_rest]. unfold ret at 1. unfold bind at 1.
  destruct (trail_end z e [] (List.length ((pre ++ b) ++ 35%N :: u)) ((pre ++ b) ++ 35%N :: u) He) as [mk' E]; [constructor|]. cbn [app] in E. rewrite E.
  exists mk'. unfold ret. rewrite skipn_length_app, <- !app_assoc. reflexivity.
Qed.
Definition trails (b c : str) : Prop := eol c /\ forall e, Grammar.blanks e -> eol (e ++ b ++ c).
Lemma eol_blank e t : Grammar.blanks e -> eol t -> eol (e ++ t).
Proof. intros He (b & c & n & -> & Hb & Hc & Hn). exists (e ++ b), c, n. rewrite <- app_assoc. split; [reflexivity|]. split; [apply blanks_app; assumption|auto]. Qed.
Lemma comment_trail z t pre mk : line_tail z t -> exists a b c mk', parse_comment_trail true (mkSt pre (t ++ z) mk) = (Ok (a, b, c), mkSt (pre ++ t) z mk') /\ Grammar.blanks a /\ (eol t -> trails b c).
Proof.
  intros (b & c & e & -> & Hb & [->|Hc] & He); rewrite <- !app_assoc.
  - cbn [app]. destruct (comment_trail_void z b e pre mk Hb He) as (mk' & E). exists [], [], (b ++ e), mk'. split; [exact E|]. split; [constructor|]. intros N. split; [exact N|]. intros e' He'. apply eol_blank; assumption.
  - destruct (comment_trail_comment z b c e pre mk Hb Hc He) as (mk' & E). exists b, c, e, mk'. split; [exact E|]. split; [exact Hb|]. intros N. apply eol_inb in N. rewrite !inb_app, (oneline_inb b), (oneline_inb c) in N by auto using blanks_oneline, comment_oneline.
    split; [exists [], [], e; split; [reflexivity|]; split; [constructor|]; split; [left; reflexivity|]; destruct He as [->|[->|[-> _]]]; [auto..|discriminate]|]. intros e' He'. exists e', c, e. split; [reflexivity|]. split; [exact He'|]. split; [right; exact Hc|]. destruct He as [->|[->|[-> _]]]; [auto..|discriminate].
Qed.
Lemma tail_drop z e t : sps e -> line_tail z (e ++ t) -> line_tail z t.
Proof.
  intros He. revert t. induction He as [|c e -> He IH]; intros t H; [exact H|]. apply IH. cbn [app] in H. clear -H. destruct H as (b & c & e0 & E & Hb & Hc & Hn). destruct b as [|x b].
  - exfalso. destruct Hc as [->|(u & -> & _)]; [|discriminate]. cbn [app] in E. destruct Hn as [->|[->|[-> _]]]; discriminate.
  - cbn [app] in E. inversion E; subst. inversion Hb; subst. exists b, c, e0. auto.
Qed.
(** What follows a value. *)
Lemma tail_split z t : line_tail z t -> exists sp u, t = sp ++ u /\ sps sp /\ date_tail (u ++ z) /\ line_tail z u.
Proof.
  intros H. destruct (split_sps t) as (sp & u & -> & Hs & Hu). exists sp, u. split; [reflexivity|]. split; [exact Hs|]. pose proof (tail_drop z sp u Hs H) as H'. split; [|exact H'].
  destruct H' as (b & c & e & -> & Hb & Hc & He). destruct b as [|x b].
  - cbn [app]. destruct Hc as [->|(v & -> & _)]; [|reflexivity]. cbn [app]. destruct He as [->|[->|[-> ->]]]; [reflexivity..|exact I].
  - inversion Hb as [|? ? Hx _]; subst. cbn. destruct Hx as [->| ->]; [exfalso; eapply Hu; reflexivity|reflexivity].
Qed.

(** * One line *)
Lemma head_blanks a c r pre mk : Grammar.blanks a -> is_blank c = false -> c <> chLF -> c <> chHASH ->
  item_head (mkSt pre (a ++ c :: r) mk) = (Ok (if (c =? chLBR)%N then HTable else HKeyValue), mkSt (pre ++ a) (c :: r) (List.length pre)).
Proof.
  intros Ha H1 H2 H3. apply N.eqb_neq in H2, H3. unfold item_head. unfold bind at 1, mark, set_mark. cbn [p_pre p_rest]. unfold bind at 1, adv_whileM. rewrite adv_all by (auto using blank_is_blank).
  unfold bind at 1, endM, at_end. cbn [p_rest]. unfold bind at 1, extractM, extract. cbn [p_pre p_mark]. rewrite skipn_length_app. unfold bind at 1, current, cur. cbn [p_rest andb]. rewrite H2, H3.
  destruct (c =? chLBR)%N; reflexivity.
Qed.
Lemma item_header {sf} n a r pre mk : Grammar.blanks a -> parse_item sf n (mkSt pre (a ++ chLBR :: r) mk) = (Ok None, mkSt (pre ++ a) (chLBR :: r) (List.length pre)).
Proof. intros Ha. unfold parse_item, restore_on_err. rewrite head_blanks by (auto; discriminate). reflexivity. Qed.
(** A blank line or a comment. *)
Definition void_item (i : item) : Prop := match i with IWs _ false | IComment _ => True | _ => False end.
Lemma item_void z t pre mk : line_tail z t -> t <> [] -> exists i mk', void_item i /\ item_string i = t /\ (inb chLF t = true -> line_closed i) /\ forall sf n, parse_item sf n (mkSt pre (t ++ z) mk) = (Ok (Some (None, i)), mkSt (pre ++ t) z mk').
Proof.
  intros (b & c & e & -> & Hb & Hc & He) Hn. destruct Hc as [->|Hc].
  - cbn [app] in *. assert (X : (exists b', b ++ e = b' ++ [10%N] /\ Forall (fun c => is_blank c = true) b') \/ (e = [] /\ z = [])).
    { destruct He as [->|[->|He]]; [left|left|right; exact He].
      - exists b. split; [reflexivity|apply blank_is_blank, Hb].
      - exists (b ++ [13%N]). rewrite <- app_assoc. split; [reflexivity|]. apply Forall_app. split; [apply blank_is_blank, Hb|repeat constructor]. }
    destruct X as [(b' & -> & Hb')|[-> ->]].
    + exists (IWs (b' ++ [10%N]) false), (List.length pre). split; [exact I|]. split; [reflexivity|]. split; [intros _; exact I|]. intros sf n. unfold parse_item, restore_on_err, item_head. unfold bind at 1, mark, set_mark. cbn [p_pre p_rest]. unfold bind at 1, adv_whileM. rewrite <- app_assoc. cbn [app].
      rewrite adv_all by (auto; reflexivity). unfold bind at 1, endM, at_end. cbn [p_rest]. unfold bind at 1, extractM at 1, extract. cbn [p_pre p_mark]. unfold bind at 1, current, cur. cbn [p_rest andb].
      change (10 =? chLF)%N with true. cbv iota. unfold bind at 1. rewrite incM_st. unfold bind, extractM, extract. cbn [p_pre p_mark]. rewrite <- app_assoc, skipn_length_app. reflexivity.
    + rewrite app_nil_r in *. exists (IWs b false), (List.length pre). split; [exact I|]. split; [reflexivity|]. split; [intros _; exact I|]. intros sf n. unfold parse_item, restore_on_err, item_head. unfold bind at 1, mark, set_mark. cbn [p_pre p_rest]. unfold bind at 1, adv_whileM.
      rewrite adv_all by (auto using blank_is_blank). unfold bind at 1, endM, at_end. cbn [p_rest]. unfold bind at 1, extractM, extract. cbn [p_pre p_mark]. rewrite skipn_length_app. unfold bind at 1, current, cur. cbn [p_rest].
      destruct b as [|x b]; [congruence|]. rewrite app_nil_r. reflexivity.
  - destruct Hc as (u & -> & Hu). destruct (comment_trail_comment z [] (35%N :: u) e (pre ++ b) (List.length pre)) as (mk' & E); [constructor|exists u; auto|exact He|]. cbn [app] in E.
    exists (IComment (mkTrivia b [] (35%N :: u) e)), mk'. split; [exact I|]. split; [reflexivity|].
    split. { intros N. rewrite !inb_app, (oneline_inb b), (oneline_inb (35%N :: u)) in N; [exact N|apply comment_oneline; exists u; auto|apply blanks_oneline, Hb]. } intros sf n. unfold parse_item, restore_on_err, item_head. unfold bind at 1, mark, set_mark. cbn [p_pre p_rest]. unfold bind at 1, adv_whileM. rewrite <- !app_assoc. cbn [app].
    rewrite adv_all by (auto using blank_is_blank; reflexivity). unfold bind at 1, endM, at_end. cbn [p_rest]. unfold bind at 1, extractM at 1, extract. cbn [p_pre p_mark]. rewrite skipn_length_app. unfold bind at 1, current, cur. cbn [p_rest andb].
    change (35 =? chLF)%N with false. change (35 =? chHASH)%N with true. cbv iota. unfold bind at 1. rewrite E. unfold ret. rewrite <- !app_assoc. reflexivity.
Qed.
(** "key = value" *)
Lemma key_head_facts k c r : k = c :: r -> key_head k -> (exists l, key_means k l) -> is_blank c = false /\ c <> chLF /\ c <> chHASH /\ c <> chLBR.
Proof.
  intros -> (H1 & _) (l & Hk). assert (N : exists w m, name_means w m /\ exists q, c :: r = w ++ q). { inversion Hk; subst; eexists _, _; (split; [eassumption|]); [exists []; rewrite app_nil_r; reflexivity|eauto]. }
  destruct N as (w & m & Hn & q & E). clear Hk. assert (G : bare_c c \/ c = 34%N \/ c = 39%N).
  { destruct Hn as [x v y Ha Hne Hv Hz|x basic v y m' Ha Hs Hz]; rewrite <- !app_assoc in E; (destruct x as [|x0 x]; [|exfalso; cbn [app] in E; inversion E; subst; inversion Ha; subst; unfold is_spaces, chSP, chTAB in H1; match goal with Hb : blank_c _ |- _ => destruct Hb as [->| ->]; discriminate end]).
    - destruct v as [|v0 v]; [congruence|]. cbn [app] in E. inversion E; subst. inversion Hv; subst. auto.
    - destruct (quote_head _ _ _ Hs) as [v' ->]. cbn [app] in E. inversion E; subst. destruct basic; auto. }
  unfold bare_c, digit_c in G. unfold is_blank, chSP, chTAB, chCR, chLF, chHASH, chLBR. lia.
Qed.
(** The entry made of a line. *)
Lemma pair_line K sep it v names : value_item it -> key_fresh K -> key_shape K -> key_names K = names -> Forall plain_part (key_parts K) -> key_means (key_string K) names ->
  sep_text sep -> snug it v -> unwrap it = Some v -> tidy (item_trivia it) -> nline (norm_entry (Some (key_set_sep sep K)) it) (Some (names, v)).
Proof.
  intros Vi Ff Sh En Fp Hk Hs D U T. pose proof (fun pfx => norm_text K it pfx Vi Ff sep) as Tx. destruct K as [sk|ks s o].
  - unfold key_names in En. cbn [key_parts map] in *. subst names. apply Forall_inv in Fp as (Kd & _ & Nm). cbn [key_set_sep norm_entry kstr]. replace (set_name (k_key (set_sep sep sk)) it) with it by (destruct it; try destruct Vi; reflexivity).
    change (k_key sk) with (k_key (set_sep sep sk)). apply nl_plain; auto; [apply value_plain, Vi|]. intros t. apply (set_trivia_get t it Vi).
  - unfold key_names in En. cbn [key_parts key_shape] in *. destruct ks as [|x [|y rest]]; cbn [List.length] in Sh; try lia. cbn [map] in En. subst names. cbn [key_set_sep norm_entry set_name super_meta tm_name] in *.
    destruct T as (Ti & Te & Tl). change (k_key x) with (k_key (set_dotted x)). eapply nl_dotted; [reflexivity|reflexivity|discriminate|reflexivity|discriminate|rewrite Tx; unfold kv_text; reflexivity|intros pfx; rewrite !Tx; reflexivity|exact Ti|exact Hk|exact Hs|exact (snug_text _ _ D)|exact Te|].
    destruct (key_dent (KDotted (x :: y :: rest) sep o) it v Sh (value_plain it Vi) U) as (sk0 & it0 & D0 & _ & N0). cbn [norm_entry set_name super_meta tm_name] in N0. injection N0 as <- E0. cbn [key_parts map] in D0. cbn [map set_dotted k_key] in *. match goal with |- dent _ _ _ ?q => replace q with (set_name (k_key x) it0) by (rewrite <- E0; reflexivity) end. apply dent_name, D0.
Qed.
Lemma ends_app w : (forall u, w <> u ++ [10%N]) -> w <> [] -> forall y u, y ++ w <> u ++ [10%N].
Proof. intros H N y u E. destruct w as [|c w] using rev_ind; [congruence|]. rewrite app_assoc in E. apply app_inj_tail in E as [_ ->]. eapply H. reflexivity. Qed.
Lemma item_pair sf z a k names s w v t pre mk : Grammar.blanks a -> key_means k names -> sep_text s -> denotes w v -> line_tail z t -> calm sf ((a ++ k ++ s ++ w ++ t) ++ z) ->
  exists m K it mk', key_shape K /\ plain it /\ unwrap it = Some v /\ key_names K = names /\ (fin z (a ++ k ++ s ++ w ++ t) -> nline (norm_entry (Some K) it) (Some (names, v))) /\
    forall n, m <= n -> parse_item sf n (mkSt pre ((a ++ k ++ s ++ w ++ t) ++ z) mk) = (Ok (Some (Some K, it)), mkSt (pre ++ a ++ k ++ s ++ w ++ t) z mk').
Proof.
  intros Ha Hk (a1 & b1 & -> & Ha1 & Hb1) Hd Ht Q. assert (Hw : comes w v) by (apply all_come; exact Hd).
  destruct (key_lead k names Hk) as (a' & k' & -> & Ha' & Hk' & Hh).
  destruct (comes_start w v Hw) as (x & w' & Ew & Vs). destruct (vstart_facts x Vs) as (_ & _ & Kx & _).
  pose proof (key_blank k' names a1 Hk' Ha1) as Hka. set (p1 := pre ++ a ++ a').
  destruct (key_run_parts (k' ++ a1) names Hka (S (List.length (k' ++ a1))) p1 ([61%N] ++ b1 ++ w ++ t ++ z) (List.length pre)) as (K & mk1 & Ek & En & Es & Ep); [cbn; tauto|discriminate|lia|].
  destruct (tail_split z t Ht) as (sp & t' & -> & Hsp & Dt & Ht').
  set (p2 := (p1 ++ k' ++ a1) ++ [61%N] ++ b1). set (sep := [61%N] ++ b1).
  assert (Qv : calm sf (w ++ sp ++ t' ++ z)). { rewrite <- !app_assoc in Q. do 4 apply calm_app in Q. do 2 apply calm_app in Q. exact Q. }
  destruct (Hw sf sp (t' ++ z) p2 (List.length (p1 ++ k' ++ a1)) Hsp Dt Qv) as (n0 & it & e & s & mk2 & -> & G & Ee & Rv). clear Q Qv. pose proof (got_plain _ _ _ G) as P. pose proof (got_unwrap _ _ _ G) as U.
  assert (Ht2 : line_tail z (s ++ t')). { rewrite <- app_assoc in Ht. apply Forall_app in Hsp as [He _]. eapply tail_drop; eauto. }
  destruct (comment_trail z (s ++ t') (p2 ++ w ++ e) mk2 Ht2) as (x1 & x2 & x3 & mk3 & Ec & Hx1 & Hx). destruct (key_run_text _ _ _ _ _ _ _ Ek) as [Et Ef].
  exists (n0 + S (List.length (k' ++ a1))), (key_set_sep sep K). eexists. exists mk3. destruct (key_names_sep sep K) as [Kn Ks].
  split; [apply Ks, Es|]. split; [|split; [|split; [rewrite Kn; exact En|split]]].
  4: { intros n Hge.
    apply (mle_up _ (parse_key n)) in Ek; [|apply mle_parse_key; lia]. apply (value_up n0 n) in Rv; [|lia].
    destruct k' as [|kc k']; [destruct Hh|]. pose proof Hh as (H1 & H2 & H3). destruct (key_head_facts _ _ _ eq_refl Hh (ex_intro _ _ Hk')) as (F1 & F2 & F3 & F4).
    replace ((a ++ (a' ++ kc :: k') ++ (a1 ++ sep) ++ w ++ (e ++ s) ++ t') ++ z) with ((a ++ a') ++ kc :: (k' ++ a1 ++ sep ++ w ++ (e ++ s) ++ t' ++ z)).
    2: { subst sep. rewrite <- !app_assoc. cbn [app]. rewrite <- ?app_assoc. cbn [app]. rewrite <- ?app_assoc. reflexivity. }
    unfold parse_item, restore_on_err. rewrite head_blanks by (auto using blanks_app). apply N.eqb_neq in F4. rewrite F4. cbn [p_pre p_rest p_mark].
    unfold parse_key_value, key_value_with. unfold bind at 1. unfold bind at 1, mark, set_mark. cbn [p_pre p_rest]. unfold bind at 1, adv_whileM at 1.
    rewrite adv_blanks by (auto using blanks_spaces, blanks_app). fold p1. unfold bind at 1, extractM at 1, extract. cbn [p_mark p_pre]. unfold bind at 1.
    replace (kc :: k' ++ a1 ++ sep ++ w ++ (e ++ s) ++ t' ++ z) with (((kc :: k') ++ a1) ++ [61%N] ++ b1 ++ w ++ ((e ++ s) ++ t') ++ z)
      by (subst sep; rewrite <- !app_assoc; reflexivity). rewrite Ek.
    unfold bind at 1. replace (w ++ ((e ++ s) ++ t') ++ z) with (x :: w' ++ ((e ++ s) ++ t') ++ z) by (rewrite Ew; reflexivity).
    rewrite sep_blanks by assumption. fold sep. unfold bind at 1.
    replace (x :: w' ++ ((e ++ s) ++ t') ++ z) with (w ++ (e ++ s) ++ t' ++ z) by (rewrite Ew, <- !app_assoc; reflexivity).
    subst p2. fold sep in Rv, Ec. rewrite Rv. cbv zeta. unfold bind at 1. unfold bind at 1. rewrite (app_assoc s t' z), Ec. assert (Lz : (sf && nonempty (tr_cws (item_trivia it)))%bool = false). { destruct sf; [|reflexivity]. rewrite (got_cws _ _ _ G), (Ee eq_refl). reflexivity. } rewrite Lz. unfold bind at 1, lossy_if, ret at 1. cbn [andb]. unfold ret. cbn [fst snd].
    f_equal. f_equal. unfold p1. rewrite <- !app_assoc. cbn [app]. rewrite <- ?app_assoc. cbn [app]. rewrite <- ?app_assoc. reflexivity. }
  - destruct it; try destruct P; exact I.
  - rewrite unwrap_trivia. exact U.
  - intros Fn. match goal with |- context [set_trivia ?u it] => set (tr := u) end. destruct (set_trivia_get tr it (got_value _ _ _ G)) as (T1 & T2 & T3).
    pose proof Hsp as Hsp0. assert (Eo : eol (s ++ t')). { apply (after_eol z ((a ++ (a' ++ k') ++ (a1 ++ sep) ++ w) ++ e)); [exact Ht2| | |].
      - rewrite Ew. destruct a, a', k', a1; discriminate.
      - intros u Eu. apply Forall_app in Hsp0 as [He _]. destruct e as [|c e] using rev_ind.
        + rewrite app_nil_r, !app_assoc in Eu. revert Eu. apply ends_app; [apply (denotes_last _ _ Hd)|rewrite Ew; discriminate].
        + rewrite app_assoc in Eu. apply app_inj_tail in Eu as [_ ->]. apply Forall_app in He as [_ He]. inversion He; discriminate.
      - replace (((a ++ (a' ++ k') ++ (a1 ++ sep) ++ w) ++ e) ++ s ++ t') with (a ++ (a' ++ k') ++ (a1 ++ sep) ++ w ++ (e ++ s) ++ t') by (rewrite <- !app_assoc; reflexivity). exact Fn. }
    destruct (Hx Eo) as [L1 L2]. apply pair_line; auto.
    + rewrite Et. exact Hka.
    + exists [], b1. split; [reflexivity|]. split; [constructor|exact Hb1].
    + apply snug_trivia; [exact P|apply G|apply G].
    + rewrite unwrap_trivia. apply G.
    + rewrite T1. subst tr. split; [|split; [|exact L1]]; cbn [tr_indent tr_cws tr_comment tr_trail].
      * subst p1. rewrite skipn_length_app. apply blanks_app; assumption.
      * apply L2. destruct (nonempty (tr_cws (item_trivia it))); [|exact Hx1]. rewrite (got_cws _ _ _ G). apply Forall_app in Hsp as [He _]. eapply Forall_impl; [|exact He]. intros c ->. left. reflexivity.
Qed.
