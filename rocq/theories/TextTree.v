(** TextTree: appending a parsed table to a container appends its text (strict runs). *)
From Verif Require Import Base Source Utils Items Container Parser Lemmas Wf Render.
From Coq Require Import ZifyBool ZifyNat ZifyN.
Open Scope nat_scope.

Definition keyedtab (kv : option skey * item) : Prop := exists k, fst kv = Some k /\ k_dotted k = false /\ is_table_or_aot (snd kv) = true.
(** Entries as the parser makes them: implicit parent tables have nothing but
    tables in them and no header of their own. *)
Inductive rt : option skey * item -> Prop :=
  | rt_dotted k c m : k_dotted k = true -> rt (Some k, ITable c m)
  | rt_leaf k c m : k_dotted k = false -> table_is_super c m = false -> rt (Some k, ITable c m)
  | rt_super k c m : k_dotted k = false -> tm_super m = Some true -> tm_disp m = None -> tr_indent (tm_trivia m) <> [chLF] ->
      Forall keyedtab (c_body c) -> Forall rt (c_body c) -> rt (Some k, ITable c m)
  | rt_aot k l n t : first_spaces (tr_indent t) = None -> rt (Some k, IAoT l n true t)
  | rt_other kv : is_table_or_aot (snd kv) = false -> (is_wsitem (snd kv) = true -> fst kv = None) -> rt kv.

Lemma super_some c m : tm_super m = Some true -> table_is_super c m = true.
Proof. unfold table_is_super. intros ->. reflexivity. Qed.
Lemma keyedtab_plain body : Forall keyedtab body -> has_plain body = false.
Proof.
  induction 1 as [|kv body (k & _ & _ & H) _ IH]; [reflexivity|]. cbn. rewrite H. cbn. exact IH.
Qed.
Lemma head_super c m k pfx : tm_super m = Some true -> tr_indent (tm_trivia m) <> [chLF] -> Forall keyedtab (c_body c) -> table_head c m k pfx = [].
Proof.
  intros H1 H2 H3. unfold table_head. rewrite (super_some c m H1), (keyedtab_plain _ H3). cbn [negb orb andb].
  destruct (str_eqb _ _) eqn:E; [|reflexivity]. apply str_eqb_eq in E. contradiction.
Qed.
Lemma rt_set_name k sk it : rt (Some sk, it) -> rt (Some sk, set_name k it).
Proof.
  intros H. destruct it as [| | | | | |c m|l n p t]; cbn [set_name]; try exact H.
  - destruct (tm_name m); [exact H|]. inversion H; subst.
    + apply rt_dotted. assumption.
    + apply rt_leaf; assumption.
    + apply rt_super; assumption.
    + discriminate.
  - destruct n; [exact H|]. inversion H; subst; [constructor; assumption|discriminate].
Qed.
Lemma keyedtab_set_name k sk it : keyedtab (Some sk, it) -> keyedtab (Some sk, set_name k it).
Proof.
  intros (x & A & B & C). exists x. split; [exact A|]. split; [exact B|]. cbn [snd] in *. rewrite <- C.
  destruct it as [| | | | | |c m|l n p t]; cbn [set_name]; try reflexivity; [destruct (tm_name m)|destruct n]; reflexivity.
Qed.
Lemma aot_append_parsed l t x : first_spaces (tr_indent t) = None -> aot_append l true t x = l ++ [x].
Proof.
  intros H. unfold aot_append, aot_insert. rewrite H. assert (E : aot_index (List.length l) (Z.of_nat (List.length l)) = List.length l).
  { unfold aot_index. assert (A : (Z.of_nat (List.length l) <? 0)%Z = false) by (apply Z.ltb_ge; lia). rewrite A. cbv zeta. rewrite A, Z.leb_refl. reflexivity. }
  rewrite E. unfold list_insert. rewrite firstn_all, skipn_all. reflexivity.
Qed.
Lemma aot_appends_parsed t il : first_spaces (tr_indent t) = None -> forall l, fold_left (fun l x => aot_append l true t x) il l = l ++ il.
Proof.
  intros H. induction il as [|x il IH]; intros l; cbn [fold_left]; [symmetry; apply app_nil_r|]. rewrite aot_append_parsed, IH, <- app_assoc by exact H. reflexivity.
Qed.
Lemma table_append_inv n c m k it r : table_append n Own true c m k it = Ok r -> snd r = m /\ exists n', append n' Own true c k it true = Ok (fst r) /\ n' < n.
Proof.
  destruct n as [|n]; [discriminate|]. cbn [table_append]. intros H. apply rbind_inv in H as (c' & A & H).
  assert (E : r = (c', m)).
  { destruct (option_map _ k).
    - destruct (map_get _ _) as [[i|l0]|]; [| |discriminate].
      + destruct (first_spaces _); [discriminate|]. congruence.
      + apply rbind_inv in H as (? & _ & H). destruct (first_spaces _); [discriminate|]. congruence.
    - destruct (first_spaces _); [discriminate|]. congruence. }
  subst r. split; [reflexivity|]. exists n. auto.
Qed.

Definition app_spec (c : container) (e : option skey * item) (c' : container) : Prop :=
  Forall rt (c_body c') /\ (Forall keyedtab (c_body c) -> keyedtab e -> Forall keyedtab (c_body c'))
  /\ forall pfx, btext pfx false (c_body c') = btext pfx false (c_body c) ++ etext pfx false e.
Lemma Forall_snoc {A} (P : A -> Prop) l x : Forall P l -> P x -> Forall P (l ++ [x]).
Proof. intros. apply Forall_app. auto. Qed.
Lemma append_text n : forall c k it v c', wfc false false false c -> wfi false false false it -> key_fine k -> Forall rt (c_body c) -> rt (norm_entry k it) ->
  append n Own true c k it v = Ok c' -> app_spec c (norm_entry k it) c'.
Proof.
  induction n as [n IH] using lt_wf_ind. intros c k it v c' Hc Hi Hk Hr He H. destruct n as [|n]; [discriminate|].
  destruct (append_shape n c k it v c' Hc Hk H) as (_ & n' & S & Hn).
  inversion S as [E|b0 k' ck cc cmeta ic im r E1 D1 D2 O B N S1 S2 F B'|b0 k' ck l nm ap t il nm' ap' t' E1 O B N B'].
  - unfold app_spec. rewrite E. split; [apply Forall_snoc; assumption|]. split; [intros; apply Forall_snoc; assumption|]. intros pfx. rewrite btext_app, btext_one. reflexivity.
  - assert (Hcc : wfc false false false cc /\ rt (Some ck, ITable cc cmeta)).
    { split.
      - apply wfc_body in Hc. rewrite B in Hc. apply Forall_app in Hc as [_ Hc]. apply Forall_inv in Hc. apply wfi_table in Hc. apply Hc.
      - rewrite B in Hr. apply Forall_app in Hr as [_ Hr]. apply Forall_inv in Hr. exact Hr. }
    destruct Hcc as [Wcc Rcc]. assert (Ee : norm_entry k it = (Some k', ITable ic im)).
    { destruct (norm_entry k it) as [a b] eqn:En. cbn [snd] in N. subst b k. cbn in En. congruence. }
    rewrite Ee in *. assert (Wic : wfc false false false ic).
    { subst k. cbn in Ee. assert (Ei : ITable ic im = set_name (k_key k') it) by congruence. pose proof (proj1 (set_name_ok false false false (k_key k') it Hi)) as W. rewrite <- Ei in W. apply wfi_table in W. apply W. }
    inversion Rcc as [|? ? ? ? X| ? ? ? _ C1 C2 C3 C4 C5| |? X _]; subst; [congruence|congruence| |discriminate].
    inversion He as [|? ? ? ? X| ? ? ? _ I1 I2 I3 I4 I5| |? X _]; subst; [congruence|congruence| |discriminate].
    assert (L : forall l c0 m0 r, Forall keyedtab l -> Forall rt l -> Forall (fun kv => wfi false false false (snd kv)) l -> wfc false false false c0 -> Forall keyedtab (c_body c0) -> Forall rt (c_body c0) ->
       fold_res (fun acc (kv : option skey * item) => table_append n' Own true (fst acc) (snd acc) (option_map KSingle (fst kv)) (snd kv)) l (c0, m0) = Ok r ->
       snd r = m0 /\ Forall keyedtab (c_body (fst r)) /\ Forall rt (c_body (fst r)) /\ forall pfx, btext pfx false (c_body (fst r)) = btext pfx false (c_body c0) ++ btext pfx false l).
    { clear - IH Hn. intros l. induction l as [|[ok v] l IHl]; intros c0 m0 r K R W Wc Kc Rc H; cbn [fold_res] in H.
      - inversion H; subst. cbn [fst snd btext flat_map]. repeat split; auto. intros. symmetry. apply app_nil_r.
      - inversion K as [|? ? K1 K2]; subst. inversion R as [|? ? R1 R2]; subst. inversion W as [|? ? W1 W2]; subst. cbn [fst snd] in *.
        apply rbind_inv in H as (r1 & T & H). apply table_append_inv in T as (T1 & n'' & T2 & T3). destruct r1 as [c1 m1]. cbn [fst snd] in *. subst m1.
        destruct K1 as (sk & E & D & Q). cbn [fst snd] in *. subst ok. cbn [option_map] in T2.
        assert (KK : keyedtab (norm_entry (Some (KSingle sk)) v)) by (apply keyedtab_set_name; exists sk; auto).
        pose proof (proj1 (app_all false false false true n'') true Own c0 (Some (KSingle sk)) v true (fun _ => eq_refl) Wc W1 I) as WW. rewrite T2 in WW. destruct WW as [WW _].
        apply IH in T2; [|lia|exact Wc|exact W1|exact I|exact Rc|cbn; apply rt_set_name; exact R1]. destruct T2 as (A1 & A2 & A3).
        apply IHl in H; auto. destruct H as (B1 & B2 & B3 & B4). split; [exact B1|]. split; [exact B2|]. split; [exact B3|].
        intros pfx. rewrite B4, A3, <- app_assoc. f_equal. cbn [btext flat_map]. f_equal. cbn [norm_entry kstr]. apply set_name_text. }
    apply L in F; auto using wfc_body. destruct F as (F1 & F2 & F3 & F4). unfold app_spec. rewrite B, B'. destruct r as [rc rm]. cbn [fst snd] in *. subst rm.
    rewrite B in Hr. apply Forall_app in Hr as [Hr0 _].
    split; [apply Forall_snoc; [exact Hr0|]; apply rt_super; assumption|]. split.
    + intros K _. apply Forall_app in K as [K1 _]. apply Forall_snoc; [exact K1|]. exists ck. auto.
    + intros pfx. rewrite !btext_app, !btext_one, <- app_assoc. f_equal. cbn [etext]. rewrite D1, D2, !andb_false_r. cbn [andb].
      rewrite !render_table_eq, !head_super by assumption. cbn [app]. unfold table_key. rewrite C2, I2, O, D1, D2. apply F4.
  - assert (Ee : norm_entry k it = (Some k', IAoT il nm' ap' t')).
    { destruct (norm_entry k it) as [a b] eqn:En. cbn [snd] in N. subst b k. cbn in En. congruence. }
    rewrite Ee in *. unfold app_spec. rewrite B, B'. rewrite B in Hr. apply Forall_app in Hr as [Hr0 Hr1]. apply Forall_inv in Hr1.
    inversion Hr1 as [| | |? ? ? ? Ht|? X _]; subst; [|discriminate]. rewrite aot_appends_parsed by exact Ht.
    split; [apply Forall_snoc; [exact Hr0|]; constructor; exact Ht|]. split.
    + intros K _. apply Forall_app in K as [K1 K2]. apply Forall_inv in K2. apply Forall_snoc; [exact K1|]. destruct K2 as (x & X1 & X2 & _). exists x. auto.
    + intros pfx. rewrite !btext_app, !btext_one, <- app_assoc. f_equal. cbn [etext]. rewrite flat_map_app, O. reflexivity.
Qed.
