(** Keys: every string, and every list of strings, is a readable key (C16). *)
From Verif Require Import Base Source Utils Items Container Arrays Parser Api Lemmas Escape Strings StringRT StringApi Numbers.
From Coq Require Import ZifyBool ZifyNat ZifyN Permutation.
Open Scope nat_scope.

Lemma basic_escapes_slb k : escape_string basic_escapes k = E1 k.
Proof.
  rewrite (escape_string_perm basic_escapes (escaped_sequences SLB)); [apply esc_slb|apply wf_basic|].
  apply NoDup_Permutation; [apply wf_basic|apply (wf_escaped SLB)|].
  assert (G : forall a b, forallb (fun q => existsb (str_eqb q) b) a = true -> forall q : str, In q a -> In q b).
  { intros a b H q Hq. rewrite forallb_forall in H. apply H in Hq. apply existsb_exists in Hq as (x & Hx & E).
    apply str_eqb_eq in E. subst. exact Hx. }
  intros q. split; apply G; vm_compute; reflexivity.
Qed.

Definition spaces (s : str) : Prop := Forall (fun c => is_spaces c = true) s.
(** What may follow a key (after blanks): nothing a key could go on with. *)
Definition key_stop (rest : str) : Prop :=
  match rest with [] => True | c :: _ => is_spaces c = false /\ is_bare_key_char c = false /\ c <> chDOT /\ c <> chDQ end.
Definition key_stop_dot (rest : str) : Prop :=
  match rest with [] => True | c :: _ => is_spaces c = false /\ is_bare_key_char c = false /\ c <> chDQ end.

Lemma bare_ok_spec k : bare_ok k = true -> k <> [] /\ Forall (fun c => is_bare_key_char c = true) k.
Proof. destruct k as [|c k]; [discriminate|]. intros H. split; [discriminate|]. apply Forall_forall. apply forallb_forall. exact H. Qed.

Lemma bare_not_space c : is_bare_key_char c = true -> is_spaces c = false /\ py_isspace c = false /\ c <> chSP /\ is_quote c = false.
Proof.
  unfold is_bare_key_char, is_ascii_letter, is_ascii_digit, is_spaces, py_isspace, is_quote, inb, chSP, chTAB, chDQ, chSQ, chUND, chMINUS. cbn [existsb]. lia.
Qed.
Lemma spaces_isspace c : is_spaces c = true -> py_isspace c = true.
Proof. unfold is_spaces, py_isspace, chSP, chTAB. lia. Qed.

Lemma strip_bare k sp : Forall (fun c => is_bare_key_char c = true) k -> k <> [] -> spaces sp -> strip (k ++ sp) = k.
Proof.
  intros Hk Hne Hsp. unfold strip, rstrip_p, lstrip_p.
  assert (Hd : drop_while py_isspace (k ++ sp) = k ++ sp).
  { destruct k as [|c k]; [congruence|]. inversion Hk; subst. cbn [app drop_while].
    destruct (bare_not_space c H1) as (_ & E & _). rewrite E. reflexivity. }
  rewrite Hd, rev_app_distr.
  assert (He : drop_while py_isspace (rev sp ++ rev k) = rev k).
  { apply (take_while_app py_isspace (rev sp) (rev k)).
    - apply Forall_rev. eapply Forall_impl; [|exact Hsp]. intros c. apply spaces_isspace.
    - destruct (rev k) as [|c r] eqn:E; [exact I|].
      assert (In c k) by (apply in_rev; rewrite E; left; reflexivity).
      rewrite Forall_forall in Hk. apply Hk, bare_not_space in H. tauto. }
  rewrite He. apply rev_involutive.
Qed.

(** One key, then blanks, then [rest]; the dot case is left open. *)
Definition key_tail (n : nat) (sk : skey) : M key :=
  c <- current ;;
  if (c =? chDOT)%N then incM ;;; k2 <- parse_key n ;; ret (key_concat (KSingle sk) k2) else ret (KSingle sk).

Lemma parse_key_one k n pre sp rest mk : spaces sp -> key_stop_dot rest ->
  List.length (k_orig (skey_of_str k)) <= n ->
  exists sk mk', parse_key (S n) (mkSt pre (k_orig (skey_of_str k) ++ sp ++ rest) mk)
    = key_tail n sk (mkSt (pre ++ k_orig (skey_of_str k) ++ sp) rest mk')
    /\ k_key sk = k /\ k_t sk = k_t (skey_of_str k) /\ k_orig sk = k_orig (skey_of_str k) ++ sp /\ k_dotted sk = false.
Proof.
  intros Hsp Hrest Hn. unfold skey_of_str in *. destruct (bare_ok k) eqn:Eb; cbn [k_orig k_t kt_value] in *.
  - rewrite app_nil_r in *. cbn [app] in *. destruct (bare_ok_spec k Eb) as [Hne Hk].
    exists (mkSKey k KTBare [] (k ++ sp) false), (List.length pre).
    split; [|repeat split].
    cbn [parse_key]. unfold bind at 1, mark, set_mark. cbn [p_pre p_rest].
    unfold bind at 1, adv_whileM at 1, adv_while at 1. cbn [p_pre p_rest p_mark].
    destruct k as [|c k]; [congruence|]. inversion Hk as [|? ? Hc Hk']; subst.
    destruct (bare_not_space c Hc) as (Es & Ep & Esp & Eq).
    cbn [app take_while drop_while]. rewrite Es. rewrite app_nil_r.
    unfold bind at 1, current at 1, cur. cbn [p_rest]. unfold bind at 1. rewrite Eq.
    unfold bind at 1, adv_whileM, adv_while. cbn [p_pre p_rest p_mark].
    change (c :: k ++ sp ++ rest) with ((c :: k) ++ sp ++ rest). rewrite app_assoc.
    destruct (take_while_app (fun x => is_bare_key_char x || is_spaces x) ((c :: k) ++ sp) rest) as [E1 E2].
    { apply Forall_app. split; [eapply Forall_impl; [|exact Hk]|eapply Forall_impl; [|exact Hsp]]; cbv beta; intros x ->;
      rewrite ?orb_true_r; reflexivity. }
    { destruct rest as [|x rest]; [exact I|]. destruct Hrest as (A & B & _). rewrite A, B. reflexivity. }
    rewrite E1, E2. unfold bind at 1, extractM, extract. cbn [p_mark p_pre]. rewrite skipn_length_app.
    rewrite strip_bare by (auto; discriminate).
    assert (Ein : inb chSP (c :: k) = false).
    { apply inb_false. intros F. rewrite Forall_forall in Hk. apply Hk, bare_not_space in F. tauto. }
    rewrite Ein. unfold ret at 1. reflexivity.
  - rewrite basic_escapes_slb in *. rewrite !app_length in Hn. cbn [List.length] in Hn.
    rewrite <- !app_assoc.
    assert (Hnq : no_quote chDQ (sp ++ rest)).
    { destruct sp as [|x sp]; cbn [app no_quote].
      - destruct rest; [exact I|]. destruct Hrest as (_ & _ & H). exact H.
      - inversion Hsp; subst. intros ->. discriminate. }
    destruct (slb_token k n pre (List.length pre) (sp ++ rest)) as [mk' Et]; [lia|exact Hnq|].
    exists (mkSKey k KTBasic [] (([chDQ] ++ E1 k ++ [chDQ]) ++ sp) false), (List.length (pre ++ [chDQ] ++ E1 k ++ [chDQ])).
    split; [|repeat split; cbn [k_orig]; rewrite <- !app_assoc; reflexivity].
    cbn [parse_key]. unfold bind at 1, mark, set_mark. cbn [p_pre p_rest].
    unfold bind at 1, adv_whileM at 1, adv_while at 1. cbn [p_pre p_rest p_mark].
    change ([chDQ] ++ E1 k ++ [chDQ] ++ sp ++ rest) with (chDQ :: (E1 k ++ [chDQ] ++ sp ++ rest)) at 1 2.
    cbn [take_while drop_while]. change (is_spaces chDQ) with false. cbv iota. rewrite app_nil_r.
    unfold bind at 1, current at 1, cur. cbn [p_rest]. unfold bind at 1. change (is_quote chDQ) with true. cbv iota.
    unfold bind at 1, extractM at 1, extract. cbn [p_mark p_pre]. rewrite skipn_all.
    rewrite N.eqb_refl. unfold bind at 1.
    change (chDQ :: E1 k ++ [chDQ] ++ sp ++ rest) with ([chDQ] ++ E1 k ++ [chDQ] ++ sp ++ rest). rewrite Et.
    cbn [st_multiline]. unfold bind at 1, mark, set_mark. cbn [p_pre p_rest].
    unfold bind at 1, adv_whileM, adv_while. cbn [p_pre p_rest p_mark].
    destruct (take_while_app is_spaces sp rest Hsp) as [E1' E2'].
    { destruct rest as [|x rest]; [exact I|]. destruct Hrest as (A & _). exact A. }
    rewrite E1', E2'. unfold bind at 1, extractM, extract. cbn [p_mark p_pre]. rewrite skipn_length_app.
    cbn [app scalar_string st_value]. unfold ret at 1.
    replace ((pre ++ chDQ :: E1 k ++ [chDQ]) ++ sp) with (pre ++ chDQ :: E1 k ++ chDQ :: sp)
      by (rewrite <- app_assoc; cbn [app]; rewrite <- app_assoc; reflexivity).
    reflexivity.
Qed.

Definition key_text (ks : list str) : str := join [chDOT] (map (fun k => k_orig (skey_of_str k)) ks).
(** api.py:227-243 [tomlkit.key(k)] for a string / an iterable of strings. *)
Lemma orig_nonempty k : exists c r, k_orig (skey_of_str k) = c :: r.
Proof.
  unfold skey_of_str. destruct (bare_ok k) eqn:E; cbn [k_orig kt_value].
  - apply bare_ok_spec in E as [H _]. destruct k; [congruence|]. cbn [app]. eauto.
  - cbn [app]. eauto.
Qed.
Lemma parse_key_list ks : forall n pre sp rest mk, ks <> [] -> spaces sp -> key_stop rest ->
  List.length (key_text ks) < n ->
  exists K mk', parse_key n (mkSt pre (key_text ks ++ sp ++ rest) mk)
     = (Ok K, mkSt (pre ++ key_text ks ++ sp) rest mk')
    /\ map k_key (key_parts K) = ks
    /\ Forall (fun sk => k_dotted sk = false) (key_parts K)
    /\ key_string K = key_text ks ++ sp
    /\ join [chDOT] (map k_orig (key_parts K)) = key_text ks ++ sp
    /\ (forall k, ks = [k] -> exists sk, K = KSingle sk).
Proof.
  induction ks as [|k ks IH]; intros n pre sp rest mk Hne Hsp Hrest Hn; [congruence|].
  destruct n as [|n]; [lia|].
  destruct ks as [|k2 ks].
  - change (key_text [k]) with (k_orig (skey_of_str k)) in *.
    destruct (parse_key_one k n pre sp rest mk Hsp) as (sk & mk' & E & H1 & H2 & H3 & H4); [|lia|].
    { destruct rest as [|x rest]; [exact I|]. destruct Hrest as (A & B & C & D). repeat split; auto. }
    exists (KSingle sk), mk'. rewrite E. unfold key_tail, bind, current, cur. cbn [p_rest].
    assert (Ed : ((match rest with [] => chNUL | c :: _ => c end) =? chDOT)%N = false).
    { destruct rest as [|x rest]; [reflexivity|]. destruct Hrest as (A & B & C & D). apply N.eqb_neq. exact C. }
    rewrite Ed. unfold ret. split; [reflexivity|]. cbn [key_parts map join key_string]. rewrite H1.
    repeat split; auto. intros; eauto.
  - change (key_text (k :: k2 :: ks)) with (k_orig (skey_of_str k) ++ [chDOT] ++ key_text (k2 :: ks)) in *.
    rewrite !app_length in Hn. cbn [List.length] in Hn.
    replace ((k_orig (skey_of_str k) ++ [chDOT] ++ key_text (k2 :: ks)) ++ sp ++ rest)
      with (k_orig (skey_of_str k) ++ [] ++ (chDOT :: (key_text (k2 :: ks) ++ sp ++ rest)))
      by (rewrite <- !app_assoc; reflexivity).
    destruct (parse_key_one k n pre [] (chDOT :: (key_text (k2 :: ks) ++ sp ++ rest)) mk) as (sk & mk1 & E & H1 & H2 & H3 & H4);
      [constructor|repeat split; discriminate|lia|].
    rewrite E. unfold key_tail. unfold bind at 1, current, cur. cbn [p_rest]. rewrite N.eqb_refl.
    unfold bind at 1. rewrite incM_st. cbn [app].
    destruct (IH n ((pre ++ k_orig (skey_of_str k) ++ []) ++ [chDOT]) sp rest mk1) as (K & mk2 & EK & G1 & G1' & G2 & G3 & G4);
      [discriminate|exact Hsp|exact Hrest|lia|].
    unfold bind. cbn [app] in EK. rewrite EK. exists (key_concat (KSingle sk) K), mk2.
    unfold ret. split.
    { f_equal. f_equal. rewrite app_nil_r, <- !app_assoc. reflexivity. }
    unfold key_concat, dotted_of. cbn [key_parts app key_string map]. rewrite G1, H1.
    split; [reflexivity|]. split; [constructor; auto|].
    assert (J : join [chDOT] (k_orig sk :: map k_orig (key_parts K)) = k_orig sk ++ [chDOT] ++ join [chDOT] (map k_orig (key_parts K))).
    { destruct (key_parts K); [discriminate G1|reflexivity]. }
    rewrite J, G3, H3, app_nil_r. rewrite <- !app_assoc. split; [reflexivity|]. split; [reflexivity|].
    intros k' F. discriminate.
Qed.
