(** RawFacts: reading "key = value" on its own (C53). *)
From Verif Require Import Base Source Utils Items Container Arrays Parser Api Lemmas Escape Strings StringRT StringApi Numbers Floats Dates Keys Reader Consist OMap ContOps Wf Fuel FuelParse Mono Text Render TextValue TextParse ListSpec ArrayLemmas ItemInd PyVal PyItem ItemConv Unwrap DumpText DumpCont DumpValue DumpHead DumpChain DumpDoc DumpTop Grammar Meaning Denote Lines Document CompStr CompNum CompDate CompKey Snug Ordinary CompValue Neat Ends DocLine Raw RawSpec.
From Coq Require Import ZifyBool ZifyNat ZifyN.
Open Scope nat_scope.

Lemma key_value_fuel src : key_value src <> Err FuelE.
Proof.
  unfold key_value, parse_key_value. assert (G : nf (S (List.length src)) (key_value_with false (parse_value false (parse_fuel src)) (parse_fuel src) false)).
  - apply nf_kv_with; [auto with good|apply nf_value; unfold parse_fuel; lia|unfold parse_fuel; lia].
  - apply G. unfold len. cbn. lia.
Qed.
Lemma key_value_run src n k it st : parse_key_value false n false (start src) = (Ok (k, it), st) -> key_value src = Ok (k, it).
Proof.
  intros E. unfold key_value, parse_key_value in *. destruct (Nat.le_ge_cases n (parse_fuel src)) as [L|L].
  - destruct (mle_kv_with false false false _ _ n (parse_fuel src) false (or_introl eq_refl) (mle_value false n (parse_fuel src) false false L (or_introl eq_refl)) L (start src)) as [(e & s & K & _)|K]; [rewrite E in K; discriminate|rewrite K, E; reflexivity].
  - destruct (mle_kv_with false false false _ _ (parse_fuel src) n false (or_introl eq_refl) (mle_value false (parse_fuel src) n false false L (or_introl eq_refl)) L (start src)) as [(e & s & K & B)|K]; [|rewrite <- K, E; reflexivity].
    exfalso. apply (key_value_fuel src). unfold key_value, parse_key_value. rewrite K. destruct e; try (destruct B; fail); [discriminate B|reflexivity].
Qed.
Lemma relax sf n n' st it st' : n <= n' -> parse_value sf n st = (Ok it, st') -> parse_value false n' st = (Ok it, st').
Proof.
  intros L E. destruct (mle_value true n n' sf false L) with (st := st) as [(e & s & K & _)|K]; [destruct sf; [right|left]; auto|rewrite E in K; discriminate|rewrite K; exact E].
Qed.
(** What is read. *)
Lemma key_value_parts sf z a k names s w v t : calm sf (w ++ t ++ z) -> Grammar.blanks a -> key_means k names -> sep_text s -> denotes w v -> line_tail z t ->
  exists K sep it e r, key_value (a ++ k ++ s ++ w ++ t ++ z) = Ok (key_set_sep sep K, it) /\ t = e ++ r /\ sps e /\ key_names K = names /\ key_shape K /\ key_fresh K /\ 
    Forall plain_part (key_parts K) /\ value_item it /\ unwrap it = Some v /\
    exists w', denotes w' v /\ (sf = true -> w' = w /\ e = []) /\ kv_text (key_string K) sep it = a ++ k ++ s ++ w' ++ e /\
      exists a2 k2, k = a2 ++ k2 /\ Grammar.blanks a2 /\ item_trivia it = mkTrivia (a ++ a2) e [] [].
Proof.
  intros Q Ha Hk (a1 & b1 & -> & Ha1 & Hb1) Hd Ht. assert (Hw : comes w v) by (apply all_come; exact Hd).
  destruct (key_lead k names Hk) as (a' & k' & -> & Ha' & Hk' & Hh).
  destruct (comes_start w v Hw) as (x & w' & Ew & Vs). destruct (vstart_facts x Vs) as (_ & _ & Kx & _).
  pose proof (key_blank k' names a1 Hk' Ha1) as Hka. set (p1 := a ++ a').
  destruct (key_run_parts (k' ++ a1) names Hka (S (List.length (k' ++ a1))) p1 ([61%N] ++ b1 ++ w ++ t ++ z) 0) as (K & mk1 & Ek & En & Es & Ep); [cbn; tauto|discriminate|lia|].
  destruct (tail_split z t Ht) as (sp & t' & -> & Hsp & Dt & Ht').
  set (p2 := (p1 ++ k' ++ a1) ++ [61%N] ++ b1). set (sep := [61%N] ++ b1).
  destruct (Hw sf sp (t' ++ z) p2 (List.length (p1 ++ k' ++ a1)) Hsp Dt) as (n0 & it & e & s & mk2 & -> & G & Ee & Rv); [rewrite <- app_assoc in Q; exact Q|]. pose proof (got_plain _ _ _ G) as P. pose proof (got_unwrap _ _ _ G) as U.
  apply Forall_app in Hsp as [He Hs]. destruct (key_run_text _ _ _ _ _ _ _ Ek) as [Et Ef].
  set (tr := mkTrivia p1 (tr_cws (item_trivia it)) (tr_comment (item_trivia it)) []). destruct (set_trivia_get tr it (got_value _ _ _ G)) as (T1 & T2 & T3).
  exists K, sep, (set_trivia tr it), e, (s ++ t'). split; [|split; [rewrite app_assoc; reflexivity|split; [exact He|split; [exact En|split; [exact Es|split; [exact Ef|split; [exact Ep|split; [exact T3|split; [rewrite unwrap_trivia; exact U|]]]]]]]]].
  - set (n := n0 + S (List.length (k' ++ a1))). apply (mle_up _ (parse_key n)) in Ek; [|apply mle_parse_key; lia]. apply (relax sf n0 n) in Rv; [|lia].
    destruct k' as [|kc k']; [destruct Hh|]. destruct (key_head_facts _ _ _ eq_refl Hh (ex_intro _ _ Hk')) as (F1 & F2 & F3 & F4). pose proof Hh as (H1 & H2 & H3).
    replace (a ++ (a' ++ kc :: k') ++ (a1 ++ sep) ++ w ++ ((e ++ s) ++ t') ++ z) with ((a ++ a') ++ kc :: (k' ++ a1 ++ sep ++ w ++ ((e ++ s) ++ t') ++ z)).
    2: { subst sep. rewrite <- !app_assoc. cbn [app]. rewrite <- ?app_assoc. cbn [app]. rewrite <- ?app_assoc. reflexivity. }
    eapply (key_value_run _ n). unfold start, parse_key_value, key_value_with. unfold bind at 1, mark, set_mark. cbn [p_pre p_rest List.length]. unfold bind at 1, adv_whileM at 1.
    rewrite adv_blanks by (auto using blanks_spaces, blanks_app). cbn [app]. fold p1. unfold bind at 1, extractM at 1, extract. cbn [p_mark p_pre skipn]. unfold bind at 1.
    replace (kc :: k' ++ a1 ++ sep ++ w ++ ((e ++ s) ++ t') ++ z) with (((kc :: k') ++ a1) ++ [61%N] ++ b1 ++ w ++ ((e ++ s) ++ t') ++ z)
      by (subst sep; rewrite <- !app_assoc; reflexivity). rewrite Ek.
    unfold bind at 1. replace (w ++ ((e ++ s) ++ t') ++ z) with (x :: w' ++ ((e ++ s) ++ t') ++ z) by (rewrite Ew; reflexivity).
    rewrite sep_blanks by assumption. fold sep. unfold bind at 1.
    replace (x :: w' ++ ((e ++ s) ++ t') ++ z) with (w ++ (e ++ s) ++ t' ++ z) by (rewrite Ew, <- !app_assoc; reflexivity).
    subst p2. fold sep in Rv. rewrite Rv. cbv zeta. unfold bind at 1. unfold bind at 1, lossy_if. cbn [andb]. unfold ret. reflexivity.
  - unfold kv_text, tail_text. rewrite T1, T2. subst tr. cbn [tr_indent tr_cws tr_comment tr_trail]. rewrite (got_cws _ _ _ G), (got_comment _ _ _ G), Et. subst p1 sep.
    exists (item_string it). split; [apply G|]. split.
    + intros ->. specialize (Ee eq_refl). split; [|exact Ee]. destruct (proj1 (values_text n0) _ _ _ Rv) as [RT _].
      assert (W : item_string it ++ tr_cws (item_trivia it) = w ++ e) by (eapply adds_inj; [exact RT|reflexivity]). rewrite (got_cws _ _ _ G), Ee, !app_nil_r in W. exact W.
    + split; [rewrite !app_nil_r, <- !app_assoc; reflexivity|]. exists a', k'. split; [reflexivity|]. split; [exact Ha'|]. reflexivity.
Qed.
(** Making a document of it. *)
Lemma inval_dotted sep it : plain it -> forall rest, inval_cont (dotted_table rest sep it) = dotted_table rest sep it.
Proof.
  intros P. induction rest as [|x rest IH]; [reflexivity|]. destruct rest as [|y rest].
  - cbn [dotted_table]. unfold singleton. cbn [inval_cont map map_get]. rewrite str_eqb_refl. destruct it; try destruct P; reflexivity.
  - change (dotted_table (x :: y :: rest) sep it) with (singleton (set_dotted x) (ITable (dotted_table (y :: rest) sep it) (super_meta (Some (k_key x))))).
    unfold singleton. cbn [inval_cont map map_get inval_item]. rewrite str_eqb_refl, IH. reflexivity.
Qed.
Lemma norm_text_any k it pfx sep : value_item it -> key_shape k -> key_string k = origs (key_parts k) ->
  Render.etext pfx false (norm_entry (Some (key_set_sep sep k)) it) = kv_text (key_string k) sep it.
Proof.
  intros Hv F4 F1. unfold kv_text. destruct k as [k|ks s o].
  - cbn [key_set_sep norm_entry kstr]. rewrite set_name_text, etext_value by exact Hv. reflexivity.
  - cbn [key_set_sep norm_entry key_shape] in *. destruct ks as [|x [|y rest]]; cbn in F4; try lia. rewrite set_name_text. cbn [Render.etext].
    change (table_is_super _ _) with true. cbn [set_dotted k_dotted negb andb].
    rewrite dotted_render; [|exact Hv|discriminate|reflexivity]. cbn [key_parts] in F1. rewrite F1. cbn [prefixed set_dotted k_orig].
    rewrite (origs_cons x) by discriminate. rewrite <- !app_assoc. reflexivity.
Qed.
(** ... appended to a new document. *)
Lemma new_body K sep it names v : key_names K = names -> key_shape K -> key_string K = origs (key_parts K) -> value_item it -> unwrap it = Some v ->
  exists c, new_document (key_set_sep sep K) it = Ok c /\ c_body c = [norm_entry (Some (key_set_sep sep K)) it] /\ cont_string c = kv_text (key_string K) sep it /\ unwrap_cont c = Some (nest names v).
Proof.
  intros En Es Ef Vi U. pose proof (value_plain it Vi) as P.
  assert (A : exists sk, new_document (key_set_sep sep K) it = Ok (Cont [(Some sk, snd (norm_entry (Some (key_set_sep sep K)) it))] [(k_key sk, One 0)] false (if is_table (snd (norm_entry (Some (key_set_sep sep K)) it)) then [k_key sk] else []) [k_key sk]) /\ fst (norm_entry (Some (key_set_sep sep K)) it) = Some sk).
  { unfold new_document, cappend. destruct (app_fuel_pos (empty_cont false) (Some (key_set_sep sep K)) it) as [n ->]. destruct K as [sk|ks s o].
    - exists (set_sep sep sk). split; [|reflexivity]. cbn [key_set_sep norm_entry kstr snd]. rewrite append_new_any by reflexivity. rewrite plain_name by exact P. destruct it; try destruct P; reflexivity.
    - cbn [key_shape key_set_sep] in *. destruct ks as [|x [|y rest]]; cbn [List.length] in Es; try lia. exists (set_dotted x). split; [|reflexivity].
      replace (append (S (S (S n))) Own false (empty_cont false) (Some (KDotted (x :: y :: rest) sep o)) it true) with (append (S (S n)) Own false (empty_cont false) (Some (KSingle (set_dotted x))) (ITable (dotted_table (y :: rest) sep it) (super_meta None)) true)
        by (destruct it; try destruct P; reflexivity).
      rewrite append_new_any by reflexivity. cbn [norm_entry snd set_name super_meta tm_name]. unfold pre_append, empty_cont. cbn [inval_item]. rewrite inval_dotted by exact P. reflexivity. }
  destruct A as (sk & A & F). eexists. split; [exact A|]. split; [cbn [c_body]; rewrite <- F, <- surjective_pairing; reflexivity|]. split.
  - rewrite cont_string_eq. cbn [c_body]. rewrite btext_one, <- (norm_text_any K it None sep Vi Es Ef), <- F, <- surjective_pairing. reflexivity.
  - destruct (key_names_sep sep K) as [Kn Ks]. destruct (key_dent (key_set_sep sep K) it v (Ks Es) P U) as (sk0 & it0 & D & _ & N). unfold key_names in *. rewrite Kn, En in D. clear Kn Ks.
    rewrite N in F |- *. cbn [fst snd] in *. injection F as ->. apply (dent_name (k_key sk)) in D. clear -D. 
    revert D. generalize (set_name (k_key sk) it0). intros i D. revert D. generalize (if is_table i then [k_key sk] else []). generalize false. intros p tks D. revert p tks.
    induction D as [sk it v P U|ns v sk sk' it' m p' tks' D IH Dk Am Sm]; intros p tks.
    + rewrite unwrap_cont_eq. cbn [c_dict map nest]. unfold uval. cbn [c_map map_get c_body nth_error]. rewrite str_eqb_refl. cbn [nth_error]. rewrite U. reflexivity.
    + pose proof (dent_ne _ _ _ _ D) as Ne. rewrite unwrap_cont_eq. cbn [c_dict map]. unfold uval. cbn [c_map map_get c_body nth_error]. rewrite str_eqb_refl. cbn [nth_error]. rewrite unwrap_table. unfold lone. rewrite IH.
      destruct ns; [congruence|reflexivity].
Qed.
Lemma new_text K sep it names v : key_names K = names -> key_shape K -> key_string K = origs (key_parts K) -> value_item it -> unwrap it = Some v ->
  exists c, new_document (key_set_sep sep K) it = Ok c /\ cont_string c = kv_text (key_string K) sep it /\ unwrap_cont c = Some (nest names v).
Proof. intros A B C D E. destruct (new_body K sep it names v A B C D E) as (c & X & _ & Y & Z). eauto. Qed.
Lemma put_nest v : forall names, names <> [] -> exists l, put names v [] l /\ dict_of l = nest names v.
Proof.
  induction names as [|k names IH]; intros N; [congruence|]. destruct names as [|k2 names].
  - exists ([] ++ [(k, Value v)]). split; [constructor; auto|reflexivity].
  - destruct IH as (l & P & E); [discriminate|]. exists ([] ++ [(k, Names l)]). split; [constructor; auto|]. cbn [app dict_of map fst snd]. rewrite node_names, E. reflexivity.
Qed.
Lemma pair_document_tail a k names s w v t : Grammar.blanks a -> key_means k names -> sep_text s -> denotes w v -> line_tail [] t -> document_means (a ++ k ++ s ++ w ++ t) (nest names v).
Proof.
  intros Ha Hk Hs Hd Ht. assert (Ne : names <> []) by (inversion Hk; discriminate). destruct (put_nest v names Ne) as (l & P & E).
  replace (a ++ k ++ s ++ w ++ t) with (((a ++ k ++ s ++ w ++ t) ++ []) ++ []) by (rewrite !app_nil_r; reflexivity). replace (nest names v) with (dict_of l ++ []) by (rewrite app_nil_r; exact E).
  constructor.
  - eapply pl_pair; eauto. constructor.
  - constructor.
  - rewrite app_nil_r, E. destruct names as [|k0 [|k1 names]]; [congruence| |]; repeat constructor; auto.
Qed.
Lemma pair_document a k names s w v e : Grammar.blanks a -> key_means k names -> sep_text s -> denotes w v -> sps e -> document_means (a ++ k ++ s ++ w ++ e) (nest names v).
Proof.
  intros Ha Hk Hs Hd He. apply pair_document_tail; auto. exists e, [], []. rewrite !app_nil_r. split; [reflexivity|]. split; [eapply Forall_impl; [|exact He]; intros c ->; left; reflexivity|]. split; [left; reflexivity|]. right. right. auto.
Qed.
