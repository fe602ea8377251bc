(** DocHead: the headers of a TOML document, in any spelling (C40). *)
From Verif Require Import Base Source Utils Items Container Arrays Parser Api Lemmas Escape Strings StringRT StringApi Numbers Floats Dates Keys Reader Consist OMap ContOps Wf Fuel FuelParse Mono ListSpec ArrayLemmas ItemInd PyVal PyItem ItemConv DumpText DumpCont DumpValue DumpHead DumpChain DumpDoc DumpTop Grammar Meaning Denote Document Spelling CompStr CompNum CompDate CompKey CompValue Text Neat Ends DocLine DocLoop.
From Coq Require Import ZifyBool ZifyNat ZifyN.
Open Scope nat_scope.

Lemma plain_parts_fine p : plain_part p -> k_dotted p = false /\ bare_space p = false.
Proof.
  intros (D & B & _). split; [exact D|]. unfold bare_space. destruct (k_t p); try reflexivity. destruct (B eq_refl) as [Ne F]. apply bares_are in F.
  assert (St : Base.strip (k_key p) = k_key p). { pose proof (strip_bare (k_key p) [] F Ne (Forall_nil _)) as H. rewrite app_nil_r in H. exact H. }
  rewrite St. apply inb_false. intros H. rewrite Forall_forall in F. apply F in H. discriminate.
Qed.
Lemma key_hkey Q K : Q <> [] -> key_names K = Q -> key_shape K -> Forall plain_part (key_parts K) -> hkey Q K.
Proof.
  intros Ne En Es Fp. split; [exact En|eapply Forall_impl; [|exact Fp]; intros p; apply plain_parts_fine|].
  unfold key_names in En. destruct K as [sk|ks s o]; cbn [key_parts key_shape] in *; subst Q; [exact I|]. destruct ks as [|a [|b ks]]; cbn [List.length] in Es; try lia. exact I.
Qed.
Lemma key_means_ne w l : key_means w l -> l <> [].
Proof. intros []; discriminate. Qed.
(** [sf]: the parser reports; then [src] is the whole text, and [sp] tells how headers are spelled. *)
Section Head.
Variables (sf : bool) (src : str).
(** [pre] has been read, [z] has not, and a line starts here. *)
Definition here (pre z : str) : Prop := sf = true -> pre ++ z = src /\ (z = [] \/ starts pre).
Lemma here_tail pre w z t : line_tail z t -> here pre ((w ++ t) ++ z) -> here (pre ++ w ++ t) z.
Proof.
  intros (b & c & e & -> & _ & _ & He) H Hs. destruct (H Hs) as [E _]. split; [rewrite <- E, <- !app_assoc; reflexivity|]. destruct He as [->|[->|[_ ->]]]; [right; right..|left; reflexivity].
  - exists (pre ++ w ++ b ++ c). rewrite <- !app_assoc. reflexivity.
  - exists (pre ++ w ++ b ++ c ++ [13%N]). rewrite <- !app_assoc. reflexivity.
Qed.
Lemma here_header pre z aot Q h : header z aot Q h -> here pre (h ++ z) -> here (pre ++ h) z.
Proof. intros (a & k & t & _ & _ & Ht & ->) H. rewrite (app_assoc a _ t) in H |- *. apply here_tail; assumption. Qed.
Lemma here_lines z l u l2 : pair_lines z l u l2 -> forall pre, here pre (u ++ z) -> here (pre ++ u) z.
Proof.
  induction 1 as [l|t w l l2 Ht H IH|a k names s v x t w l y1 l2 Ha Hk Hse Hd Hp Ht H IH]; intros pre Hh.
  - rewrite app_nil_r. exact Hh.
  - rewrite app_assoc. apply IH. apply (here_tail pre [] _ _ Ht). cbn [app]. rewrite app_assoc. exact Hh.
  - rewrite app_assoc. apply IH. replace (a ++ k ++ s ++ v ++ t) with ((a ++ k ++ s ++ v) ++ t) in Hh |- * by (rewrite <- !app_assoc; reflexivity). rewrite <- (app_assoc _ w z) in Hh. apply here_tail; assumption.
Qed.
(** The parser stands at the text [z]; it may have read the blanks before a header. *)
Definition ready (pre z : str) (st : pst) : Prop :=
  here pre z /\ exists a z' mk, st = mkSt (pre ++ a) z' mk /\ z = a ++ z' /\ Grammar.blanks a /\ ((z' = [] /\ a = []) \/ (mk = List.length pre /\ exists r, z' = chLBR :: r)).
Definition hdr_at (st : pst) (aot : bool) (Q : list str) : Prop :=
  exists K m, (forall n, m <= n -> peek_table n st = (Ok (aot, K), st)) /\ hkey Q K.
Lemma blanks_lbr a b r s : Grammar.blanks a -> Grammar.blanks b -> a ++ chLBR :: r = b ++ chLBR :: s -> a = b /\ r = s.
Proof.
  intros Ha. revert b. induction Ha as [|x a Hx Ha IH]; intros [|y b] Hb E; cbn [app] in E; inversion E; subst.
  - auto.
  - inversion Hb as [|? ? [Hy|Hy] _]; discriminate.
  - destruct Hx; discriminate.
  - inversion Hb; subst. destruct (IH b H3 H1) as [-> ->]. auto.
Qed.
Definition opening (aot : bool) : str := if aot then [91; 91]%N else [91]%N.
Definition closing (aot : bool) : str := if aot then [93; 93]%N else [93]%N.
Lemma header_parts z aot Q h : header z aot Q h -> exists a k t, Grammar.blanks a /\ key_means k Q /\ line_tail z t /\ h = a ++ opening aot ++ k ++ closing aot ++ t.
Proof. intros (a & k & t & Ha & Hk & Ht & ->). exists a, k, t. split; [exact Ha|]. split; [exact Hk|]. split; [exact Ht|]. destruct aot; cbn [opening closing]; rewrite <- !app_assoc; reflexivity. Qed.
(** Where a header is expected, at its bracket. *)
Lemma ready_header pre z aot Q h st : header z aot Q h -> ready pre (h ++ z) st ->
  exists a k t, h = a ++ opening aot ++ k ++ closing aot ++ t /\ Grammar.blanks a /\ key_means k Q /\ line_tail z t /\ st = mkSt (pre ++ a) (opening aot ++ k ++ closing aot ++ t ++ z) (List.length pre).
Proof.
  intros H (_ & a0 & z' & mk & -> & E & Ha0 & Hz). destruct (header_parts _ _ _ _ H) as (a & k & t & Ha & Hk & Ht & ->).
  rewrite <- !app_assoc in E. destruct Hz as [[-> ->]|[-> [r ->]]].
  - exfalso. cbn [app] in E. destruct a, aot; discriminate.
  - assert (E1 : a ++ chLBR :: ((if aot then [91%N] else []) ++ k ++ closing aot ++ t ++ z) = a0 ++ chLBR :: r) by (rewrite <- E; destruct aot; reflexivity).
    destruct (blanks_lbr a a0 _ _ Ha Ha0 E1) as [<- E2]. exists a, k, t. split; [reflexivity|]. split; [exact Ha|]. split; [exact Hk|]. split; [exact Ht|]. f_equal. rewrite <- E2. destruct aot; reflexivity.
Qed.
Lemma key_first k Q : key_means k Q -> exists c r, k = c :: r /\ (c =? chLBR)%N = false.
Proof.
  intros H. destruct (key_lead k Q H) as (a & k' & -> & Ha & Hk & Hh). destruct k' as [|c k']; [destruct Hh|]. destruct (key_head_facts _ _ _ eq_refl Hh (ex_intro _ _ Hk)) as (_ & _ & _ & F4).
  destruct a as [|x a]; cbn [app]; eexists _, _; (split; [reflexivity|]); [apply N.eqb_neq, F4|]. inversion Ha as [|? ? [->| ->] _]; reflexivity.
Qed.
(** The key is spelled [Q], and so are its parts. *)
Definition wkey (Q : list str) (K : key) : Prop := Forall (fun p => name_means (k_orig p) (k_key p)) (key_parts K) /\ key_means (key_string K) Q /\ key_string K = origs (key_parts K) /\ map k_key (key_parts K) = Q.
Lemma wkey_sep Q K s : wkey Q K -> wkey Q (key_set_sep s K).
Proof. intros [A B]. destruct K as [sk|ks s0 o]; [|split; assumption]. split; [|exact B]. constructor; [|constructor]. apply Forall_inv in A. exact A. Qed.
Lemma table_key_any k Q pre rest mk : key_means k Q ->
  exists K mk', (forall n, List.length k < n -> parse_table_key n (mkSt pre (k ++ chRBR :: rest) mk) = (Ok K, mkSt (pre ++ k) (chRBR :: rest) mk')) /\ hkey Q K /\ wkey Q K /\ key_string K = k.
Proof.
  intros H. destruct (key_run_parts k Q H (S (List.length k)) pre (chRBR :: rest) mk) as (K & mk' & E & A & B & C); [right; right; reflexivity|discriminate|lia|].
  destruct (key_run_text _ _ _ _ _ _ _ E) as [Tx [Tf _]]. exists K, mk'. split; [|split; [apply key_hkey; auto; eapply key_means_ne; eauto|split; [|exact Tx]; split; [eapply Forall_impl; [|exact C]; intros p0 (_ & _ & X); exact X|split; [rewrite Tx; exact H|split; [exact Tf|exact A]]]]]. intros n Hn. apply (mle_up _ (parse_key n)) in E; [|apply mle_parse_key; lia]. unfold parse_table_key. rewrite E. reflexivity.
Qed.
Lemma closing_eq aot s : closing aot ++ s = chRBR :: (if aot then [chRBR] else []) ++ s.
Proof. destruct aot; reflexivity. Qed.
Lemma header_peek pre z aot Q h st : header z aot Q h -> ready pre (h ++ z) st -> hdr_at st aot Q.
Proof.
  intros H R. destruct (ready_header _ _ _ _ _ _ H R) as (a & k & t & -> & Ha & Hk & Ht & ->). remember (List.length pre) as mk eqn:Emk. rewrite closing_eq. destruct (key_first k Q Hk) as (c & k1 & Ek & Ec).
  set (rest := (if aot then [chRBR] else []) ++ t ++ z).
  destruct (table_key_any k Q ((pre ++ a) ++ opening aot) rest mk Hk) as (K & mk' & E & HK & _). exists K, (S (List.length k)). split; [|exact HK]. intros n Hn. specialize (E n ltac:(lia)).
  unfold peek_table, restoring_all. unfold bind at 1, current at 1, cur. destruct aot; cbn [opening app p_rest]; change (91 =? chLBR)%N with true; cbn [negb].
  - unfold bind at 1. rewrite incM_st. unfold bind at 1, current at 1, cur. cbn [p_rest]. change (91 =? chLBR)%N with true. cbv iota.
    unfold bind at 1. unfold bind at 1. rewrite incM_st. unfold ret at 1. unfold bind at 1. cbn [opening] in E. rewrite <- !app_assoc in E. cbn [app] in E. rewrite <- !app_assoc. cbn [app]. rewrite E. reflexivity.
  - unfold bind at 1. rewrite incM_st. unfold bind at 1, current at 1, cur. cbn [p_rest].
    replace (match k ++ chRBR :: rest with [] => chNUL | c0 :: _ => c0 end) with c by (rewrite Ek; reflexivity). rewrite Ec.
    unfold bind at 1, ret at 1. unfold bind at 1. cbn [opening] in E. rewrite E. reflexivity.
Qed.
Variable sp : str -> str.
(** ... as headers spell it. *)
Definition skey_ok (p : skey) : Prop := name_means (k_orig p) (k_key p) /\ (sf = true -> k_orig p = sp (k_key p)).
Definition spelt (Q : list str) (K : key) : Prop := wkey Q K /\ (sf = true -> map k_orig (key_parts K) = map sp Q).
Lemma spelt_parts Q K : spelt Q K -> Forall skey_ok (key_parts K).
Proof.
  intros ((A & _ & _ & B) & C). subst Q. rewrite map_map in C. revert A C. generalize (key_parts K). induction l as [|p l IH]; intros A C; [constructor|]. apply Forall_cons_iff in A as [A1 A]. constructor.
  - split; [exact A1|]. intros Hs. specialize (C Hs). injection C as C _. exact C.
  - apply IH; [exact A|]. intros Hs. specialize (C Hs). injection C as _ C. exact C.
Qed.
Lemma spelt_string Q K : spelt Q K -> sf = true -> key_string K = join [46%N] (map sp Q).
Proof. intros ((_ & _ & E & _) & C) Hs. rewrite E. unfold origs. rewrite (C Hs). reflexivity. Qed.
(** What [_parse_table] does once the header has been read. *)
Definition dfinish (n : nat) (parent : option key) (stack : list key) (is_aot : bool) (full : key) (t t0 : trivia) (c : container) : M (key * item) :=
  let all_parts := key_parts full in
  let plen := match parent with Some p => List.length (key_parts p) | None => O end in
  let parts := skipn plen all_parts in
  let in_stack := is_aot && match parts with p :: _ => existsb (key_eqb (KSingle p)) stack | [] => false end in
  match parts with
  | p :: ((_ :: _) as rest) =>
      let lname := k_key (last rest p) in
      let m := mkTM t is_aot (Some false) (Some lname) (Some (key_string full)) in
      ret (KSingle p, ITable (nest t rest (k_key p) c m is_aot) (mkTM t0 in_stack (Some true) (Some (k_key p)) None))
  | _ =>
      let name := match parts with p :: _ => k_key p | [] => join [chDOT] (map k_key all_parts) end in
      let m := mkTM t is_aot (Some false) (Some name) (Some (key_string full)) in
      let rkey := match parts with p :: _ => KSingle p | [] => full end in
      if is_aot && match stack with top :: _ => negb (key_eqb full top) | [] => true end
      then aot <- parse_aot sf n (c, m) full stack ;; ret (rkey, aot)
      else ret (rkey, ITable c m)
  end.
Definition after_head (n : nat) (parent : option key) (stack : list key) (is_aot : bool) (full : key) (t t0 : trivia) : M (key * item) :=
  c <- table_loop sf n full stack (empty_cont true) ;;
  lift (validate_all c) ;;;
  lossy_if (sf && negb (inb chLF (tr_trail t)) && cont_nonempty c) 8 ;;;
  dfinish n parent stack is_aot full t t0 c.
(** The reports about the spelling of the header. *)
Definition quiet (parent : option key) (ptext : option str) (stack : list key) (is_aot : bool) (full : key) : Prop := sf = true ->
  let parts := skipn (match parent with Some p => List.length (key_parts p) | None => O end) (key_parts full) in
  (is_aot = true -> key_string full = rendered_name ptext parts) /\ Nat.ltb 1 (List.length parts) && (is_aot && match parts with p :: _ => existsb (key_eqb (KSingle p)) stack | [] => false end) = false.
Lemma no_spaces a : ~ In 32%N a -> first_spaces a = None.
Proof.
  intros H. unfold first_spaces. replace (drop_while (fun c => negb (c =? chSP)%N) a) with (@nil char); [reflexivity|]. symmetry. induction a as [|c a IH]; [reflexivity|]. cbn [drop_while]. destruct (N.eqb_spec c chSP) as [->|E]; [exfalso; apply H; left; reflexivity|]. apply IH. intros X. apply H. right. exact X.
Qed.
Hypothesis Even : sf = true -> even_headers sp src.
Lemma head_spelling pre z aot Q a k t K : pre ++ (a ++ opening aot ++ k ++ closing aot ++ t) ++ z = src -> starts pre -> Grammar.blanks a -> line_tail z t -> key_string K = k -> wkey Q K -> sf = true ->
  map k_orig (key_parts K) = map sp Q /\ (3 <= List.length Q -> first_spaces a = None).
Proof.
  intros E Hp Ha Ht Ek (Wn & _ & Eo & En) Hs. destruct (Even Hs a (map k_orig (key_parts K)) Q) as [A B].
  - exists pre, aot, t, z. split; [|split; [exact Hp|split; [exact Ha|split; [|exact Ht]]]].
    + change (join [46%N] (map k_orig (key_parts K))) with (origs (key_parts K)). rewrite <- Eo, Ek, <- E. destruct aot; cbn [opening closing]; rewrite <- !app_assoc; reflexivity.
    + rewrite <- En. clear -Wn. induction Wn; constructor; assumption.
  - split; [exact A|]. intros L. apply no_spaces, B, L.
Qed.
Lemma tail_eol z t : line_tail z t -> eol t \/ z = [].
Proof. intros (b & c & e & -> & Hb & Hc & [->|[->|[-> ->]]]); [left..|right; reflexivity]; eexists b, c, _; repeat split; auto. Qed.
Lemma head_run pre z aot Q h st : header z aot Q h -> ready pre (h ++ z) st ->
  exists full t t0 mk' m, hkey Q full /\ spelt Q full /\ (fin z h -> tidy t /\ tidy t0) /\ (sf = true -> 3 <= List.length Q -> first_spaces (tr_indent t) = None) /\ tr_indent t0 = [] /\ (inb chLF (tr_trail t) = true \/ z = []) /\ forall parent ptext stack n, m <= n -> quiet parent ptext stack aot full ->
    parse_table sf (S n) parent ptext stack st = after_head n parent stack aot full t t0 (mkSt (pre ++ h) z mk').
Proof.
  intros H R. pose proof R as [Hh _]. destruct (ready_header _ _ _ _ _ _ H R) as (a & k & t & -> & Ha & Hk & Ht & ->). remember (List.length pre) as mk eqn:Emk. rewrite (closing_eq aot (t ++ z)). destruct (key_first k Q Hk) as (c & k1 & Ek & Ec).
  set (rest := (if aot then [chRBR] else []) ++ t ++ z).
  destruct (table_key_any k Q ((pre ++ a) ++ opening aot) rest mk Hk) as (K & mk' & E & HK & WK & Tk).
  destruct (comment_trail z t ((((pre ++ a) ++ opening aot) ++ k) ++ closing aot) mk' Ht) as (x1 & x2 & x3 & mk2 & Ect & Hx1 & Hx).
  set (ind := skipn mk (pre ++ a)).
  assert (Ei : ind = a) by (subst ind; rewrite Emk; apply skipn_length_app).
  exists (key_set_sep [] K), (mkTrivia ind x1 x2 x3), (mkTrivia [] x1 x2 x3), mk2, (S (List.length k)). split; [apply hkey_sep, HK|].
  assert (Sp : sf = true -> map k_orig (key_parts K) = map sp Q /\ (3 <= List.length Q -> first_spaces a = None)).
  { intros Hs. destruct (Hh Hs) as [E0 [E1|E1]]; [destruct a, aot; discriminate|]. eapply head_spelling; eauto. }
  split. { split; [apply wkey_sep, WK|]. intros Hs. destruct (Sp Hs) as [Sp1 _]. destruct K; exact Sp1. }
  split. { intros Fn. assert (Eo : eol t). { apply (after_eol z (a ++ opening aot ++ k ++ closing aot)); [exact Ht|destruct a, aot; discriminate| |rewrite <- !app_assoc; exact Fn].
      intros u. apply (last_char _ u (a ++ opening aot ++ k ++ (if aot then [93%N] else [])) 93%N); [|discriminate]. destruct aot; cbn [opening closing]; rewrite <- !app_assoc; reflexivity. }
    destruct (Hx Eo) as [L1 L2]. split; (split; [|split; [apply L2, Hx1|exact L1]]); cbn [tr_indent]; [|constructor]. subst ind. rewrite Emk, skipn_length_app. exact Ha. }
  split. { intros Hs L. cbn [tr_indent]. rewrite Ei. apply (Sp Hs), L. } split; [reflexivity|].
  split. { cbn [tr_trail]. destruct (tail_eol z t Ht) as [Eo|Eo]; [left|right; exact Eo]. apply eol_inb, (Hx Eo). }
  intros parent ptext stack n Hn Qt. specialize (E n ltac:(lia)).
  assert (Q5 : sf && aot && negb (str_eqb (key_string (key_set_sep [] K)) (rendered_name ptext (skipn (match parent with Some p => List.length (key_parts p) | None => O end) (key_parts (key_set_sep [] K))))) = false).
  { apply Bool.not_true_is_false. intros X. apply andb_true_iff in X as [X X3]. apply andb_true_iff in X as [X1 X2]. destruct (Qt X1) as [Q1 _]. rewrite (Q1 X2), str_eqb_refl in X3. discriminate. }
  assert (Q9 : sf && Nat.ltb 1 (List.length (skipn (match parent with Some p => List.length (key_parts p) | None => O end) (key_parts (key_set_sep [] K)))) && (aot && match skipn (match parent with Some p => List.length (key_parts p) | None => O end) (key_parts (key_set_sep [] K)) with p :: _ => existsb (key_eqb (KSingle p)) stack | [] => false end) = false).
  { apply Bool.not_true_is_false. intros X. rewrite <- andb_assoc in X. apply andb_true_iff in X as [X1 X2]. destruct (Qt X1) as [_ Q1]. cbv zeta in Q1. rewrite Q1 in X2. discriminate. }
  assert (Ek' : exists t', k ++ chRBR :: rest = c :: t') by (rewrite Ek; cbn [app]; eauto). destruct Ek' as [t' Ek'].
  cbn [parse_table]. unfold bind at 1, current at 1, cur. destruct aot; cbn [opening closing app p_rest] in *; change (91 =? chLBR)%N with true; cbn [negb];
    unfold bind at 1, extractM at 1, extract; cbn [p_pre p_mark]; fold ind; unfold bind at 1; rewrite incM_st; unfold bind at 1, endM at 1, at_end at 1; cbn [p_rest].
  - unfold bind at 1, current at 1, cur. cbn [p_rest]. change (91 =? chLBR)%N with true. cbv iota.
    unfold bind at 1. unfold bind at 1. rewrite incM_st. replace (match k ++ chRBR :: rest with [] => false | _ => true end) with true by (rewrite Ek'; reflexivity). unfold ret at 1. unfold bind at 1.
    rewrite <- (app_assoc (pre ++ a) [91%N] [91%N]). cbn [app]. rewrite E.
    unfold bind at 1, endM at 1, at_end at 1. cbn [p_rest]. unfold bind at 1, current at 1, cur. cbn [p_rest]. change (chRBR =? chRBR)%N with true. cbn [negb]. cbv zeta.
    rewrite existsb_false by (eapply Forall_impl; [|apply (hk_plain _ _ (hkey_sep Q K [] HK))]; intros y [_ Hy]; exact Hy).
    unfold bind at 1. rewrite incM_st. unfold bind at 1, current at 1. unfold bind at 1. unfold rest, cur. cbn [app p_rest]. change (chRBR =? chRBR)%N with true. cbn [negb]. rewrite !andb_false_r. unfold lossy_if at 1. unfold ret at 1. unfold bind at 1. rewrite incM_st.
    rewrite <- (app_assoc _ [chRBR] [chRBR]). cbn [app]. unfold bind at 1. change [chRBR; chRBR] with [93; 93]%N. rewrite Ect. unfold bind at 1. rewrite Q5. unfold lossy_if at 1, ret at 1. unfold bind at 1. rewrite Q9. unfold lossy_if at 1, ret at 1.
    unfold after_head, dfinish. cbv zeta. rewrite <- !app_assoc. cbn [app]. reflexivity.
  - replace (match k ++ chRBR :: rest with [] => true | _ => false end) with false by (rewrite Ek'; reflexivity). unfold bind at 1, current at 1, cur. cbn [p_rest].
    replace (match k ++ chRBR :: rest with [] => chNUL | c0 :: _ => c0 end) with c by (rewrite Ek'; reflexivity). rewrite Ec.
    unfold bind at 1. unfold ret at 1. unfold bind at 1. rewrite E.
    unfold bind at 1, endM at 1, at_end at 1. cbn [p_rest]. unfold bind at 1, current at 1, cur. cbn [p_rest]. change (chRBR =? chRBR)%N with true. cbn [negb]. cbv zeta.
    rewrite existsb_false by (eapply Forall_impl; [|apply (hk_plain _ _ (hkey_sep Q K [] HK))]; intros y [_ Hy]; exact Hy).
    unfold bind at 1. rewrite incM_st. unfold bind at 1, current at 1. unfold bind at 1. rewrite andb_false_r. cbn [andb]. unfold lossy_if at 1. unfold ret at 1. unfold rest. cbn [app]. unfold bind at 1. unfold ret at 1.
    unfold bind at 1. change [chRBR] with [93]%N. rewrite Ect. unfold bind at 1. unfold lossy_if at 1, ret at 1. unfold bind at 1. rewrite ?andb_false_r. unfold lossy_if at 1, ret at 1.
    unfold after_head, dfinish. cbv zeta. rewrite <- !app_assoc. cbn [app]. reflexivity.
Qed.
End Head.
Arguments ready_header {sf src}.
Arguments header_peek {sf src}.

