(** CompKey: every TOML key is read as the names it stands for (C38). *)
From Verif Require Import Base Source Utils Items Container Arrays Parser Api Lemmas Escape Strings StringRT StringApi Numbers Keys Text Grammar Meaning Denote CompStr.
From Coq Require Import ZifyBool ZifyNat ZifyN.
Open Scope nat_scope.

Lemma blanks_spaces w : blanks w -> spaces w.
Proof. apply Forall_impl. intros c. apply blank_sp. Qed.
Lemma bare_is c : bare_c c -> is_bare_key_char c = true.
Proof. unfold bare_c, digit_c, is_bare_key_char, is_ascii_letter, is_ascii_digit, chUND, chMINUS. lia. Qed.
Lemma bares_are w : Forall bare_c w -> Forall (fun c => is_bare_key_char c = true) w.
Proof. apply Forall_impl. intros c. apply bare_is. Qed.
Lemma strip_bare_l a k sp : spaces a -> Forall (fun c => is_bare_key_char c = true) k -> k <> [] -> spaces sp -> strip (a ++ k ++ sp) = k.
Proof.
  intros Ha Hk Hne Hsp. rewrite <- (strip_bare k sp Hk Hne Hsp) at 2. unfold strip, lstrip_p. f_equal. induction Ha as [|c a Hc Ha IH]; [reflexivity|].
  cbn [app drop_while]. rewrite (spaces_isspace c Hc). exact IH.
Qed.
(** What may follow a key. *)
Definition key_end (rest : str) : Prop := match rest with c :: _ => c = 46%N \/ c = 61%N \/ c = 93%N | [] => False end.
Lemma adv_blanks a c r pre mk : spaces a -> is_spaces c = false -> adv_while is_spaces (mkSt pre (a ++ c :: r) mk) = mkSt (pre ++ a) (c :: r) mk.
Proof. intros Ha Hc. unfold adv_while. cbn [p_pre p_rest p_mark]. destruct (take_while_app is_spaces a (c :: r) Ha Hc) as [-> ->]. reflexivity. Qed.
Lemma quote_head basic (w m : str) : string_means basic false w m -> exists r, w = quote_of basic :: r.
Proof. intros (n & b & _ & _ & ->). cbn [app]. eauto. Qed.
Lemma name_run w m : name_means w m -> forall n pre rest mk, key_end rest -> List.length w <= n ->
  exists sk mk', parse_key (S n) (mkSt pre (w ++ rest) mk) = key_tail n sk (mkSt (pre ++ w) rest mk') /\ k_key sk = m /\ k_dotted sk = false /\ (k_t sk = KTBare -> m <> [] /\ Forall bare_c m) /\ k_orig sk = w.
Proof.
  intros [a v z Ha Hn Hv Hz|a basic v z m' Ha Hs Hz] n pre rest mk Hr Hl.
  - pose proof Hv as Hv0. apply blanks_spaces in Ha, Hz. apply bares_are in Hv. exists (mkSKey v KTBare [] (a ++ v ++ z) false), (List.length pre). split; [|split; [|split; [|split]]; auto].
    cbn [parse_key]. unfold bind at 1, mark, set_mark. cbn [p_pre p_rest].
    destruct v as [|c v]; [congruence|]. pose proof Hv as Hv'. inversion Hv' as [|? ? Hc _]; subst. destruct (bare_not_space c Hc) as (Es & Ep & Esp & Eq).
    unfold bind at 1, adv_whileM at 1. rewrite <- !app_assoc. cbn [app]. rewrite adv_blanks by assumption.
    unfold bind at 1, current at 1, cur. cbn [p_rest]. unfold bind at 1. rewrite Eq.
    unfold bind at 1, adv_whileM, adv_while. cbn [p_pre p_rest p_mark].
    change (c :: v ++ z ++ rest) with ((c :: v) ++ z ++ rest). rewrite (app_assoc (c :: v) z rest).
    destruct (take_while_app (fun x => is_bare_key_char x || is_spaces x) ((c :: v) ++ z) rest) as [E1 E2].
    { apply Forall_app. split; [eapply Forall_impl; [|exact Hv]|eapply Forall_impl; [|exact Hz]]; cbv beta; intros x ->; rewrite ?orb_true_r; reflexivity. }
    { destruct rest as [|x rest]; [exact I|]. destruct Hr as [->|[->| ->]]; reflexivity. }
    rewrite E1, E2. unfold bind at 1, extractM, extract. cbn [p_mark p_pre]. rewrite <- app_assoc. rewrite skipn_length_app.
    rewrite strip_bare_l by (auto; discriminate).
    assert (Ein : inb chSP (c :: v) = false).
    { apply inb_false. intros F. rewrite Forall_forall in Hv. apply Hv, bare_not_space in F. tauto. }
    rewrite Ein. unfold ret at 1. cbn [app]. reflexivity.
  - apply blanks_spaces in Ha, Hz. rewrite !app_length in Hl.
    assert (Hnq : no_quote (quote_of basic) (z ++ rest)).
    { destruct z as [|x z]; cbn [app no_quote]; [destruct rest as [|x rest]; [destruct Hr|]; destruct basic, Hr as [->|[->| ->]]; discriminate|].
      inversion Hz; subst. intros ->. destruct basic; discriminate. }
    destruct (string_run basic false v m' Hs n (pre ++ a) (List.length pre) (z ++ rest)) as (o & mk' & Et); [lia|exact Hnq|].
    exists (mkSKey m' (if basic then KTBasic else KTLiteral) [] (a ++ scalar_string (SStr (styp basic false) m' o) ++ z) false), (List.length ((pre ++ a) ++ v)).
    assert (Es : scalar_string (SStr (styp basic false) m' o) = v). { apply parse_string_text in Et; [|destruct basic; reflexivity]. eapply adds_inj; [exact Et|reflexivity]. }
    split; [|split; [reflexivity|split; [reflexivity|split; [destruct basic; discriminate|cbn [k_orig]; rewrite Es; reflexivity]]]].
    destruct (quote_head basic v m' Hs) as [v' Ev]. cbn [parse_key]. unfold bind at 1, mark, set_mark. cbn [p_pre p_rest].
    unfold bind at 1, adv_whileM at 1. rewrite <- !app_assoc in *. rewrite Ev at 1. cbn [app]. rewrite adv_blanks by (auto; destruct basic; reflexivity).
    unfold bind at 1, current at 1, cur. cbn [p_rest]. unfold bind at 1.
    assert (Eq : is_quote (quote_of basic) = true) by (destruct basic; reflexivity). rewrite Eq.
    unfold bind at 1, extractM at 1, extract. cbn [p_mark p_pre]. rewrite skipn_length_app.
    assert (Ed : (quote_of basic =? chDQ)%N = basic) by (destruct basic; reflexivity). rewrite Ed. unfold bind at 1.
    replace (quote_of basic :: v' ++ z ++ rest) with (v ++ z ++ rest) by (rewrite Ev; reflexivity).
    replace (if basic then SLB else SLL) with (styp basic false) by (destruct basic; reflexivity). rewrite Et.
    assert (Em : st_multiline (styp basic false) = false) by (destruct basic; reflexivity). rewrite Em.
    unfold bind at 1, mark, set_mark. cbn [p_pre p_rest]. unfold bind at 1, adv_whileM. destruct rest as [|x rest]; [destruct Hr|].
    rewrite adv_blanks by (auto; destruct Hr as [->|[->| ->]]; reflexivity).
    unfold bind at 1, extractM, extract. cbn [p_mark p_pre]. rewrite <- !app_assoc. rewrite (app_assoc a v z), (app_assoc pre).
    rewrite <- (app_assoc a v), !app_assoc. rewrite <- (app_assoc pre a v). rewrite (app_assoc pre a v). rewrite skipn_length_app.
    unfold ret at 1. reflexivity.
Qed.
Lemma name_ne w m : name_means w m -> w <> [].
Proof.
  intros [a v z Ha Hn Hv Hz|a basic v z m' Ha Hs Hz]; [destruct v as [|c v]; [congruence|]|destruct (quote_head _ _ _ Hs) as [v' ->]]; destruct a; discriminate.
Qed.
(** Keys of one or more names. *)
Definition key_names (K : key) : list str := map k_key (key_parts K).
Definition key_shape (K : key) : Prop := match K with KSingle _ => True | KDotted ks _ _ => 2 <= List.length ks end.
Definition plain_part (p : skey) : Prop := k_dotted p = false /\ (k_t p = KTBare -> k_key p <> [] /\ Forall bare_c (k_key p)) /\ name_means (k_orig p) (k_key p).
Lemma key_run_parts w l : key_means w l -> forall n pre rest mk, key_end rest -> hd 0%N rest <> 46%N -> List.length w < n ->
  exists K mk', parse_key n (mkSt pre (w ++ rest) mk) = (Ok K, mkSt (pre ++ w) rest mk') /\ key_names K = l /\ key_shape K /\ Forall plain_part (key_parts K).
Proof.
  induction 1 as [w m H|w m r l H Hr IH]; intros n pre rest mk He Hd Hl; (destruct n as [|n]; [lia|]).
  - destruct (name_run w m H n pre rest mk He) as (sk & mk' & E & Ek & Ed & Eb & Eo); [lia|]. exists (KSingle sk), mk'. rewrite E. unfold key_tail, bind, current, cur. cbn [p_rest].
    destruct rest as [|c rest]; [destruct He|]. cbn [hd] in Hd. apply N.eqb_neq in Hd. unfold chDOT. rewrite Hd. unfold key_names. cbn [key_parts map key_shape]. rewrite Ek.
    split; [reflexivity|]. split; [reflexivity|]. split; [exact I|]. constructor; [|constructor]. split; [exact Ed|]. rewrite Ek, Eo. split; [exact Eb|exact H].
  - rewrite !app_length in Hl. cbn [List.length] in Hl. rewrite <- !app_assoc. cbn [app].
    destruct (name_run w m H n pre (46%N :: r ++ rest) mk) as (sk & mk' & E & Ek & Ed & Eb & Eo); [left; reflexivity|lia|]. rewrite E.
    unfold key_tail. unfold bind at 1, current, cur. cbn [p_rest]. change (46 =? chDOT)%N with true. cbv iota. unfold bind at 1. rewrite incM_st.
    destruct (IH n ((pre ++ w) ++ [46%N]) rest mk' He Hd) as (K & mk2 & EK & El & Es & Ep); [lia|]. unfold bind. rewrite EK.
    exists (key_concat (KSingle sk) K), mk2. unfold ret. rewrite <- !app_assoc. split; [reflexivity|]. unfold key_names in *. cbn. rewrite Ek, El. split; [reflexivity|].
    assert (1 <= List.length (key_parts K)) by (destruct K; cbn in *; lia). split; [lia|]. constructor; [|exact Ep]. split; [exact Ed|]. rewrite Ek, Eo. split; [exact Eb|exact H].
Qed.
Lemma key_run_text n w pre rest mk K mk' : parse_key n (mkSt pre (w ++ rest) mk) = (Ok K, mkSt (pre ++ w) rest mk') -> key_string K = w /\ key_fresh K.
Proof. intros E. apply parse_key_text in E as [A F]. split; [eapply adds_inj; [exact A|reflexivity]|exact F]. Qed.
Lemma key_run w l : key_means w l -> forall n pre rest mk, key_end rest -> hd 0%N rest <> 46%N -> List.length w < n ->
  exists K mk', parse_key n (mkSt pre (w ++ rest) mk) = (Ok K, mkSt (pre ++ w) rest mk') /\ key_names K = l /\ key_shape K.
Proof. intros H n pre rest mk He Hd Hl. destruct (key_run_parts w l H n pre rest mk He Hd Hl) as (K & mk' & E & A & B & _). eauto. Qed.
(** Blanks around a key. *)
Lemma blanks_app a b : blanks a -> blanks b -> blanks (a ++ b).
Proof. intros. apply Forall_app. auto. Qed.
Lemma name_blank w m a : name_means w m -> blanks a -> name_means (w ++ a) m.
Proof. intros [x v z Ha Hn Hv Hz|x basic v z m' Ha Hs Hz] H; rewrite <- !app_assoc; [apply nn_bare|eapply nn_quoted]; eauto using blanks_app. Qed.
Lemma key_blank w l a : key_means w l -> blanks a -> key_means (w ++ a) l.
Proof.
  intros H Ha. induction H as [w m H|w m r l H Hr IH]; [apply km_one, name_blank; assumption|]. rewrite <- !app_assoc. apply km_dot; assumption.
Qed.
Definition key_head (w : str) : Prop := match w with c :: _ => is_spaces c = false /\ c <> 125%N /\ c <> 44%N | [] => False end.
Lemma bare_head c : bare_c c -> is_spaces c = false /\ c <> 125%N /\ c <> 44%N.
Proof. unfold bare_c, digit_c, is_spaces, chSP, chTAB. lia. Qed.
Lemma name_lead w m : name_means w m -> exists a r, w = a ++ r /\ blanks a /\ name_means r m /\ key_head r.
Proof.
  intros [x v z Ha Hn Hv Hz|x basic v z m' Ha Hs Hz]; exists x.
  - exists (v ++ z). split; [reflexivity|]. split; [exact Ha|]. split; [apply (nn_bare []); [constructor|assumption..]|].
    destruct v; [congruence|]. inversion Hv; subst. apply bare_head. assumption.
  - exists (v ++ z). split; [reflexivity|]. split; [exact Ha|]. split; [apply (nn_quoted [] basic); [constructor|assumption..]|].
    destruct (quote_head _ _ _ Hs) as [v' ->]. destruct basic; cbn; repeat split; discriminate.
Qed.
Lemma key_lead w l : key_means w l -> exists a r, w = a ++ r /\ blanks a /\ key_means r l /\ key_head r.
Proof.
  intros [v m H|v m r l' H Hr]; destruct (name_lead _ _ H) as (a & u & -> & Ha & Hu & Hh).
  - exists a, u. split; [reflexivity|]. split; [exact Ha|]. split; [apply km_one, Hu|exact Hh].
  - exists a, (u ++ [46%N] ++ r). rewrite <- !app_assoc. split; [reflexivity|]. split; [exact Ha|]. split; [apply km_dot; assumption|]. destruct u; [destruct Hh|exact Hh].
Qed.
(** The equals sign and the blanks after it. *)
Lemma sep_loop_blanks b c r mk : blanks b -> is_kv_sep c = false -> forall pre, sep_loop (b ++ c :: r) pre mk true = (Ok true, mkSt (pre ++ b) (c :: r) mk).
Proof.
  intros Hb Hc. induction Hb as [|x b Hx Hb IH]; intros pre.
  - cbn [app sep_loop]. rewrite Hc, app_nil_r. reflexivity.
  - cbn [app sep_loop]. assert (Ex : is_kv_sep x = true) by (destruct Hx as [->| ->]; reflexivity). rewrite Ex.
    assert (E : exists d s, b ++ c :: r = d :: s /\ (d =? chEQ)%N = false).
    { destruct b as [|d b]; cbn [app]; eexists _, _; (split; [reflexivity|]); [unfold is_kv_sep in Hc; lia|]. inversion Hb as [|? ? [->| ->] _]; reflexivity. }
    destruct E as (d & s & E & Ed). rewrite E, Ed, <- E, IH, <- app_assoc. reflexivity.
Qed.
Lemma sep_blanks b c r pre mk : blanks b -> is_kv_sep c = false -> parse_sep (mkSt pre ([61%N] ++ b ++ c :: r) mk) = (Ok ([61%N] ++ b), mkSt (pre ++ [61%N] ++ b) (c :: r) (List.length pre)).
Proof.
  intros Hb Hc. unfold parse_sep, bind at 1, mark, set_mark. cbn [p_pre p_rest app]. unfold bind at 1, current at 1, cur. cbn [p_rest]. change (61 =? chEQ)%N with true.
  unfold bind at 1. cbn [p_rest p_pre p_mark]. cbn [sep_loop]. change (is_kv_sep 61) with true. cbv iota.
  assert (E : exists d s, b ++ c :: r = d :: s /\ (d =? chEQ)%N = false).
  { destruct b as [|d b]; cbn [app]; eexists _, _; (split; [reflexivity|]); [unfold is_kv_sep in Hc; lia|]. inversion Hb as [|? ? [->| ->] _]; reflexivity. }
  destruct E as (d & s & E & Ed). rewrite E, Ed, <- E, sep_loop_blanks by assumption.
  unfold bind at 1, current, cur. cbn [p_rest negb]. unfold extractM, extract. cbn [p_mark p_pre]. rewrite <- app_assoc. rewrite skipn_length_app. reflexivity.
Qed.
