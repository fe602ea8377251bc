(** DumpHead: table headers and lines, as [dumps] writes them, read back. *)
From Verif Require Import Base Source Utils Items Container Arrays Parser Api Lemmas Escape Strings StringRT StringApi Numbers Floats Dates Keys Reader Consist OMap ContOps Wf Mono ListSpec ArrayLemmas ItemInd PyVal PyItem ItemConv DumpText DumpCont DumpValue.
From Coq Require Import ZifyBool ZifyNat ZifyN Permutation.
Open Scope nat_scope.

(** * Header keys *)
Definition bare_space (p : skey) : bool := match k_t p with KTBare => inb chSP (Base.strip (k_key p)) | _ => false end.
Record hkey (F : list str) (K : key) : Prop := {
  hk_parts : map k_key (key_parts K) = F;
  hk_plain : Forall (fun p => k_dotted p = false /\ bare_space p = false) (key_parts K);
  hk_shape : match F, K with [_], KSingle _ => True | _ :: _ :: _, KDotted _ _ _ => True | _, _ => False end }.
Lemma bare_fine k sk : k_key sk = k -> k_t sk = k_t (skey_of_str k) -> bare_space sk = false.
Proof.
  intros E T. unfold bare_space. rewrite T, E. unfold skey_of_str. destruct (bare_ok k) eqn:B; cbn [k_t]; [|reflexivity].
  apply bare_ok_spec in B as [Ne F]. assert (St : Base.strip k = k). { pose proof (strip_bare k [] F Ne (Forall_nil _)) as H. rewrite app_nil_r in H. exact H. }
  rewrite St. unfold inb. apply Bool.not_true_is_false. intros H. apply existsb_exists in H as (x & Hx & Ex). apply N.eqb_eq in Ex. subst x.
  rewrite Forall_forall in F. apply F in Hx. discriminate.
Qed.
Lemma header_key F : forall n pre rest mk, F <> [] -> List.length (path_text F) < n ->
  exists K mk', parse_key n (mkSt pre (path_text F ++ chRBR :: rest) mk) = (Ok K, mkSt (pre ++ path_text F) (chRBR :: rest) mk') /\ hkey F K.
Proof.
  induction F as [|k F IH]; intros n pre rest mk Ne Hn; [congruence|]. destruct n as [|n]; [lia|]. destruct F as [|k2 F].
  - change (path_text [k]) with (key1 k) in *. destruct (parse_key_one k n pre [] (chRBR :: rest) mk) as (sk & mk' & E & A & B & C & D).
    { constructor. } { cbn. split; [reflexivity|]. split; [reflexivity|discriminate]. } { fold (key1 k). lia. }
    fold (key1 k) in *. exists (KSingle sk), mk'. cbn [app] in E. rewrite E, app_nil_r. unfold key_tail, bind, current, cur. cbn [p_rest].
    change (chRBR =? chDOT)%N with false. split; [reflexivity|]. split; [cbn; rewrite A; reflexivity| |exact I].
    constructor; [|constructor]. split; [exact D|]. eapply bare_fine; eauto.
  - change (path_text (k :: k2 :: F)) with (key1 k ++ [chDOT] ++ path_text (k2 :: F)) in *. rewrite !app_length in Hn. cbn [List.length] in Hn.
    replace ((key1 k ++ [chDOT] ++ path_text (k2 :: F)) ++ chRBR :: rest) with (key1 k ++ [] ++ chDOT :: path_text (k2 :: F) ++ chRBR :: rest) by (rewrite <- !app_assoc; reflexivity).
    destruct (parse_key_one k n pre [] (chDOT :: path_text (k2 :: F) ++ chRBR :: rest) mk) as (sk & mk1 & E & A & B & C & D).
    { constructor. } { repeat split; discriminate. } { fold (key1 k). lia. }
    fold (key1 k) in *. rewrite E. unfold key_tail. unfold bind at 1, current, cur. cbn [p_rest]. rewrite N.eqb_refl. unfold bind at 1. rewrite incM_st.
    destruct (IH n ((pre ++ key1 k ++ []) ++ [chDOT]) rest mk1) as (K & mk2 & EK & HK); [discriminate|lia|].
    unfold bind. rewrite EK. exists (key_concat (KSingle sk) K), mk2. split.
    { unfold ret. f_equal. f_equal. rewrite app_nil_r, <- !app_assoc. reflexivity. }
    destruct HK as [P1 P2 P3]. unfold key_concat, dotted_of. split; cbn [key_parts app map].
    + rewrite A, P1. reflexivity.
    + constructor; [|exact P2]. split; [exact D|]. eapply bare_fine; eauto.
    + exact I.
Qed.
Lemma hkey_sep F K s : hkey F K -> hkey F (key_set_sep s K).
Proof.
  intros [A B C]. destruct K as [sk|ks s0 o]; split; cbn [key_set_sep key_parts map] in *; auto.
  inversion B; subst. constructor; auto.
Qed.
Lemma skeys_eqb_map a : forall b, skeys_eqb a b = true <-> map k_key a = map k_key b.
Proof.
  induction a as [|x a IH]; intros [|y b]; cbn [skeys_eqb map]; try (split; congruence).
  rewrite andb_true_iff, IH, str_eqb_eq. split; [intros [-> ->]; reflexivity|]. intros H. injection H as H1 H2. auto.
Qed.
Lemma hkey_child F K Q K' : hkey F K -> hkey Q K' -> is_child K K' = true <-> F <> Q /\ firstn (List.length F) Q = F.
Proof.
  intros H H'. unfold is_child. rewrite andb_true_iff, negb_true_iff, skeys_eqb_map, <- firstn_map, (hk_parts _ _ H), (hk_parts _ _ H').
  replace (List.length (key_parts K)) with (List.length F) by (rewrite <- (hk_parts _ _ H), map_length; reflexivity).
  assert (X : skeys_eqb (key_parts K) (key_parts K') = false <-> F <> Q).
  { rewrite <- (hk_parts _ _ H), <- (hk_parts _ _ H'), <- skeys_eqb_map. destruct (skeys_eqb _ _); split; congruence. }
  rewrite X. intuition congruence.
Qed.
Lemma hkey_eqb F K Q K' : hkey F K -> hkey Q K' -> key_eqb K K' = true <-> F = Q.
Proof.
  intros [A _ C] [A' _ C']. destruct K as [x|xs s o], K' as [y|ys s' o']; cbn [key_eqb key_parts map] in *; subst.
  - rewrite str_eqb_eq. split; congruence.
  - destruct ys as [|? [|? ?]]; cbn [map] in C'; try destruct C'. split; [discriminate|]. intros H. discriminate.
  - destruct xs as [|? [|? ?]]; cbn [map] in C; try destruct C. split; [discriminate|]. intros H. discriminate.
  - apply skeys_eqb_map.
Qed.
Lemma hkey_length F K : hkey F K -> List.length (key_parts K) = List.length F.
Proof. intros H. rewrite <- (hk_parts _ _ H), map_length. reflexivity. Qed.

(** * Comments at the end of a line: none *)
Lemma trail_lf pre r mk : parse_comment_trail true (mkSt pre (chLF :: r) mk) = (Ok ([], [], [chLF]), mkSt (pre ++ [chLF]) r (List.length pre)).
Proof.
  unfold parse_comment_trail, parse_trail. unfold bind at 1, endM, at_end. cbn [p_rest]. unfold bind at 1, mark, set_mark. cbn [p_pre p_rest].
  unfold bind at 1, adv_whileM. rewrite adv_none by reflexivity. unfold bind, endM, at_end, current, cur. cbn [p_rest].
  change (chLF =? chLF)%N with true. cbn [orb]. unfold ret. cbn [p_rest]. unfold adv_whileM. rewrite adv_none by reflexivity. cbn [p_rest]. change (chLF =? chCR)%N with false. cbv iota. cbn [p_rest].
  change (chLF =? chLF)%N with true. cbv iota. unfold incM, inc. cbn [p_rest p_pre p_mark]. unfold extractM, extract. cbn [p_mark p_pre]. rewrite skipn_length_app. reflexivity.
Qed.

(** * Headers *)
Definition tail_head (tail : str) : Prop := tail = [] \/ exists r, tail = chLBR :: r.
Lemma hdr_start aot F : exists r, hdr aot F = chLBR :: r.
Proof. unfold hdr. destruct aot; cbn [app]; eauto. Qed.
Lemma path_start F : F <> [] -> exists c r, path_text F = c :: r /\ kstart c.
Proof.
  destruct F as [|k F]; [congruence|]. intros _. destruct (key1_start k) as (c & r & E & K). unfold path_text. destruct F as [|k2 F].
  - exists c, r. cbn [map join]. rewrite E. auto.
  - exists c, (r ++ [chDOT] ++ join [chDOT] (map key1 (k2 :: F))). cbn [map join]. rewrite E. auto.
Qed.
Lemma table_key F pre rest mk : F <> [] ->
  exists K mk', (forall n, List.length (path_text F) < n -> parse_table_key n (mkSt pre (path_text F ++ chRBR :: rest) mk) = (Ok K, mkSt (pre ++ path_text F) (chRBR :: rest) mk')) /\ hkey F K.
Proof.
  intros H. destruct (header_key F (S (List.length (path_text F))) pre rest mk H) as (K & mk' & E & HK); [lia|]. exists K, mk'. split; [|exact HK]. intros n Hn.
  apply (mle_up _ (parse_key n)) in E; [|apply mle_parse_key; lia]. unfold parse_table_key. rewrite E. reflexivity.
Qed.
Definition hdr_end (aot : bool) : str := (if aot then [chRBR] else []) ++ [chLF].
Lemma hdr_eq aot F r : hdr aot F ++ r = chLBR :: (if aot then [chLBR] else []) ++ path_text F ++ chRBR :: hdr_end aot ++ r.
Proof. unfold hdr, hdr_end. destruct aot; cbn [app]; rewrite <- ?app_assoc; reflexivity. Qed.
Lemma peek_hdr aot F n r pre mk : F <> [] -> List.length (path_text F) < n ->
  exists K, peek_table n (mkSt pre (hdr aot F ++ r) mk) = (Ok (aot, K), mkSt pre (hdr aot F ++ r) mk) /\ hkey F K.
Proof.
  intros Ne Hn. rewrite hdr_eq. destruct (path_start F Ne) as (c & s & Ep & Kc). apply kstart_facts in Kc. destruct Kc as (_ & _ & _ & _ & _ & _ & _ & K8 & _).
  unfold peek_table, restoring_all. unfold bind at 1, current at 1, cur. cbn [p_rest]. change (chLBR =? chLBR)%N with true. cbn [negb].
  destruct aot; cbn [app].
  - destruct (table_key F ((pre ++ [chLBR]) ++ [chLBR]) (hdr_end true ++ r) mk Ne) as (K & mk' & E & HK). specialize (E n Hn). exists K. split; [|exact HK].
    unfold bind at 1. rewrite incM_st. unfold bind at 1, current at 1, cur. cbn [p_rest]. change (chLBR =? chLBR)%N with true. cbv iota.
    unfold bind at 1. unfold bind at 1. rewrite incM_st. unfold ret at 1. unfold bind at 1. rewrite E. reflexivity.
  - destruct (table_key F (pre ++ [chLBR]) (hdr_end false ++ r) mk Ne) as (K & mk' & E & HK). specialize (E n Hn). exists K. split; [|exact HK].
    unfold bind at 1. rewrite incM_st. unfold bind at 1, current at 1, cur. cbn [p_rest].
    set (t := path_text F ++ chRBR :: hdr_end false ++ r) in *. assert (Et : exists t', t = c :: t') by (subst t; rewrite Ep; cbn [app]; eauto). destruct Et as (t' & Et).
    rewrite Et. apply N.eqb_neq in K8. rewrite K8. rewrite <- Et. unfold bind at 1, ret at 1. unfold bind at 1. rewrite E. reflexivity.
Qed.
(** What [_parse_table] does once the header of [F] has been read. *)
Definition lf_trivia : trivia := mkTrivia [] [] [] [chLF].
Definition finish (n : nat) (parent : option key) (stack : list key) (is_aot : bool) (full : key) (c : container) : M (key * item) :=
  let all_parts := key_parts full in
  let plen := match parent with Some p => List.length (key_parts p) | None => O end in
  let parts := skipn plen all_parts in
  let in_stack := is_aot && match parts with p :: _ => existsb (key_eqb (KSingle p)) stack | [] => false end in
  match parts with
  | p :: ((_ :: _) as rest) =>
      let lname := k_key (last rest p) in
      let m := mkTM lf_trivia is_aot (Some false) (Some lname) (Some (key_string full)) in
      ret (KSingle p, ITable (nest lf_trivia rest (k_key p) c m is_aot) (mkTM lf_trivia in_stack (Some true) (Some (k_key p)) None))
  | _ =>
      let name := match parts with p :: _ => k_key p | [] => join [chDOT] (map k_key all_parts) end in
      let m := mkTM lf_trivia is_aot (Some false) (Some name) (Some (key_string full)) in
      let rkey := match parts with p :: _ => KSingle p | [] => full end in
      if is_aot && match stack with top :: _ => negb (key_eqb full top) | [] => true end
      then aot <- parse_aot false n (c, m) full stack ;; ret (rkey, aot)
      else ret (rkey, ITable c m)
  end.
Definition after_header (n : nat) (parent : option key) (stack : list key) (is_aot : bool) (full : key) : M (key * item) :=
  c <- table_loop false n full stack (empty_cont true) ;;
  lift (validate_all c) ;;;
  finish n parent stack is_aot full c.
Lemma existsb_false {A} (f : A -> bool) l : Forall (fun x => f x = false) l -> existsb f l = false.
Proof. induction 1 as [|x l H F IH]; [reflexivity|]. cbn [existsb]. rewrite H, IH. reflexivity. Qed.
Lemma header_run aot F parent ptext stack pre r : F <> [] ->
  exists full mk', hkey F full /\ forall n, List.length (path_text F) < n ->
    parse_table false (S n) parent ptext stack (mkSt pre (hdr aot F ++ r) (List.length pre)) = after_header n parent stack aot full (mkSt (pre ++ hdr aot F) r mk').
Proof.
  intros Ne. rewrite hdr_eq. destruct (path_start F Ne) as (c & s & Ep & Kc). apply kstart_facts in Kc. destruct Kc as (_ & _ & _ & _ & _ & _ & _ & K8 & _). apply N.eqb_neq in K8.
  assert (Ne2 : forall x, path_text F ++ chRBR :: x = c :: s ++ chRBR :: x) by (intros; rewrite Ep; reflexivity).
  destruct aot; cbn [app].
  - destruct (table_key F ((pre ++ [chLBR]) ++ [chLBR]) (hdr_end true ++ r) (List.length pre) Ne) as (K & mk1 & E & HK). exists (key_set_sep [] K). eexists. split; [apply hkey_sep, HK|]. intros n Hn. specialize (E n Hn).
    set (t := path_text F ++ chRBR :: hdr_end true ++ r) in *. assert (Et : exists t', t = c :: t') by (subst t; rewrite Ep; cbn [app]; eauto). destruct Et as (t' & Et).
    cbn [parse_table]. unfold bind at 1, current at 1, cur. cbn [p_rest]. change (chLBR =? chLBR)%N with true. cbn [negb].
    unfold bind at 1, extractM at 1, extract. cbn [p_pre p_mark]. rewrite skipn_all. unfold bind at 1. rewrite incM_st. unfold bind at 1, endM at 1, at_end at 1. cbn [p_rest].
    unfold bind at 1, current at 1, cur. cbn [p_rest]. change (chLBR =? chLBR)%N with true. cbv iota.
    unfold bind at 1. unfold bind at 1. rewrite incM_st. replace (match t with [] => false | _ => true end) with true by (rewrite Et; reflexivity). unfold ret at 1. unfold bind at 1. rewrite E.
    unfold bind at 1, endM at 1, at_end at 1. cbn [p_rest]. unfold bind at 1, current at 1, cur. cbn [p_rest]. change (chRBR =? chRBR)%N with true. cbn [negb]. cbv zeta.
    rewrite existsb_false by (eapply Forall_impl; [|apply (hk_plain _ _ (hkey_sep F K [] HK))]; intros a [_ Ha]; exact Ha).
    unfold bind at 1. rewrite incM_st. unfold bind at 1, current at 1. unfold bind at 1. cbn [andb]. unfold lossy_if at 1. unfold ret at 1. unfold hdr_end. cbn [app]. unfold bind at 1. rewrite incM_st.
    unfold bind at 1. rewrite trail_lf. unfold bind at 1. unfold lossy_if at 1, ret at 1. unfold bind at 1. unfold lossy_if at 1, ret at 1.
    unfold after_header, finish. cbv zeta.
    replace (((((pre ++ [chLBR]) ++ [chLBR]) ++ path_text F) ++ [chRBR]) ++ [chRBR]) with (pre ++ [chLBR; chLBR] ++ path_text F ++ [chRBR; chRBR]) by (rewrite <- !app_assoc; reflexivity).
    unfold hdr. rewrite <- !app_assoc. cbn [app]. reflexivity.
  - destruct (table_key F (pre ++ [chLBR]) (hdr_end false ++ r) (List.length pre) Ne) as (K & mk1 & E & HK). exists (key_set_sep [] K). eexists. split; [apply hkey_sep, HK|]. intros n Hn. specialize (E n Hn).
    set (t := path_text F ++ chRBR :: hdr_end false ++ r) in *. assert (Et : exists t', t = c :: t') by (subst t; rewrite Ep; cbn [app]; eauto). destruct Et as (t' & Et).
    cbn [parse_table]. unfold bind at 1, current at 1, cur. cbn [p_rest]. change (chLBR =? chLBR)%N with true. cbn [negb].
    unfold bind at 1, extractM at 1, extract. cbn [p_pre p_mark]. rewrite skipn_all. unfold bind at 1. rewrite incM_st. unfold bind at 1, endM at 1, at_end at 1. cbn [p_rest].
    replace (match t with [] => true | _ => false end) with false by (rewrite Et; reflexivity). unfold bind at 1, current at 1, cur. cbn [p_rest].
    replace (match t with [] => chNUL | c0 :: _ => c0 end) with c by (rewrite Et; reflexivity). rewrite K8.
    unfold bind at 1. unfold ret at 1. unfold bind at 1. rewrite E.
    unfold bind at 1, endM at 1, at_end at 1. cbn [p_rest]. unfold bind at 1, current at 1, cur. cbn [p_rest]. change (chRBR =? chRBR)%N with true. cbn [negb]. cbv zeta.
    rewrite existsb_false by (eapply Forall_impl; [|apply (hk_plain _ _ (hkey_sep F K [] HK))]; intros a [_ Ha]; exact Ha).
    unfold bind at 1. rewrite incM_st. unfold bind at 1, current at 1. unfold bind at 1. cbn [andb]. unfold lossy_if at 1. unfold ret at 1. unfold hdr_end. cbn [app]. unfold bind at 1. unfold ret at 1.
    unfold bind at 1. rewrite trail_lf. unfold bind at 1. unfold lossy_if at 1, ret at 1. unfold bind at 1. unfold lossy_if at 1, ret at 1.
    unfold after_header, finish. cbv zeta.
    replace ((((pre ++ [chLBR]) ++ path_text F) ++ [chRBR])) with (pre ++ [chLBR] ++ path_text F ++ [chRBR]) by (rewrite <- !app_assoc; reflexivity).
    unfold hdr. rewrite <- !app_assoc. cbn [app]. reflexivity.
Qed.

(** * Lines *)
Definition line (kv : str * pyv) : str := key1 (fst kv) ++ L " = " ++ vtext false (snd kv) ++ [chLF].
Definition nows (c : container) : Prop := match rev (c_body c) with (_, IWs _ _) :: _ => False | _ => True end.
Lemma add_nows c k it : plain it -> nows (add_new c k it).
Proof.
  destruct c as [body m p tks d]. unfold nows. cbn [add_new c_body]. rewrite rev_app_distr. cbn [rev app]. intros P. destruct it; cbn in *; auto; destruct P.
Qed.
Lemma merge_none i c st : nows c -> merge_ws i c st = None.
Proof.
  destruct c as [body m p tks d]. unfold nows, merge_ws. cbn [c_body]. destruct i; try reflexivity. destruct (rev body) as [|[k []] r]; try reflexivity. intros [].
Qed.
Lemma head_line c r pre mk : kstart c -> item_head (mkSt pre (c :: r) mk) = (Ok HKeyValue, mkSt pre (c :: r) (List.length pre)).
Proof.
  intros K. apply kstart_facts in K. destruct K as (_ & K2 & _ & K4 & _ & _ & K7 & K8 & _). apply N.eqb_neq in K4, K7, K8.
  unfold item_head. unfold bind at 1, mark, set_mark. cbn [p_pre p_rest]. unfold bind at 1, adv_whileM. rewrite adv_none by exact K2.
  unfold bind at 1, endM, at_end. cbn [p_rest]. unfold bind at 1, extractM, extract. cbn [p_pre p_mark]. rewrite skipn_all. unfold bind at 1, current, cur. cbn [p_rest].
  cbn [nonempty andb]. rewrite K7, K4, K8. reflexivity.
Qed.
Lemma line_item k v rest : reads_e (k, v) -> exists m it, shows_as v it /\
  forall pre mk, exists mk', forall n, m <= n -> parse_item false n (mkSt pre (line (k, v) ++ rest) mk) = (Ok (Some (Some (KSingle (read_key k)), it)), mkSt (pre ++ line (k, v)) rest mk').
Proof.
  intros R. destruct (kv_run true k (vtext false v) v (chLF :: rest) R) as (m & it & S1 & H); [cbn; tauto|].
  exists m, (set_trivia (mkTrivia [] (if nonempty (tr_cws (item_trivia it)) then tr_cws (item_trivia it) else []) [] [chLF]) it). split; [apply set_shows, S1|].
  intros pre mk. destruct (H pre (List.length pre)) as [mk1 H']. exists (List.length (pre ++ key1 k ++ L " = " ++ vtext false v)). intros n Hn.
  unfold line. cbn [fst snd]. replace ((key1 k ++ L " = " ++ vtext false v ++ [chLF]) ++ rest) with (key1 k ++ L " = " ++ vtext false v ++ chLF :: rest) by (rewrite <- !app_assoc; reflexivity).
  specialize (H' n Hn). set (t := key1 k ++ L " = " ++ vtext false v ++ chLF :: rest) in *.
  destruct (key1_start k) as (c & s & E & K). assert (Et : exists t', t = c :: t') by (subst t; rewrite E; cbn [app]; eauto). destruct Et as (t' & Et).
  unfold parse_item, restore_on_err. rewrite Et, head_line, <- Et by exact K. cbn [p_pre p_rest p_mark]. unfold parse_key_value. unfold bind at 1. rewrite H'. cbv zeta.
  unfold bind at 1. unfold bind at 1. rewrite trail_lf. unfold ret. f_equal. f_equal. rewrite <- !app_assoc. reflexivity.
Qed.
Lemma plain_kind it : plain it -> forall c st, merge_ws it c st = None.
Proof. intros P [body m p tks d] st. destruct it; cbn in P; try reflexivity. destruct P. Qed.
Lemma item_lf n pre rest mk : parse_item false n (mkSt pre (chLF :: rest) mk) = (Ok (Some (None, IWs [chLF] false)), mkSt (pre ++ [chLF]) rest (List.length pre)).
Proof.
  unfold parse_item, restore_on_err, item_head. unfold bind at 1, mark, set_mark. cbn [p_pre p_rest]. unfold bind at 1, adv_whileM. rewrite adv_none by reflexivity.
  unfold bind at 1, endM, at_end. cbn [p_rest]. unfold bind at 1, extractM, extract. cbn [p_pre p_mark]. rewrite skipn_all. unfold bind at 1, current, cur. cbn [p_rest nonempty andb].
  change (chLF =? chLF)%N with true. cbv iota. unfold bind at 1. rewrite incM_st. unfold bind, extractM, extract. cbn [p_pre p_mark]. rewrite skipn_length_app. reflexivity.
Qed.
Lemma item_lbr n pre rest mk : parse_item false n (mkSt pre (chLBR :: rest) mk) = (Ok None, mkSt pre (chLBR :: rest) (List.length pre)).
Proof.
  unfold parse_item, restore_on_err, item_head. unfold bind at 1, mark, set_mark. cbn [p_pre p_rest]. unfold bind at 1, adv_whileM. rewrite adv_none by reflexivity.
  unfold bind at 1, endM, at_end. cbn [p_rest]. unfold bind at 1, extractM, extract. cbn [p_pre p_mark]. rewrite skipn_all. reflexivity.
Qed.
