(** CopyFacts: a copy of what the parser builds is that very thing. *)
From Verif Require Import Base Source Utils Items Container Arrays Parser Copy Lemmas Wf Errors Render.
Open Scope nat_scope.

(** * Regrouping the parts of an array gives the same groups *)
Lemma loop_indent g s rest this : group_ok g -> g_indent g = Some s -> (forall v, g_value g = Some v -> is_deco v = false) ->
  group_loop (group_elems g ++ rest) this = this :: group_loop rest g.
Proof.
  intros (_ & Hi & Hc & Hv & Hm) E D. destruct g as [ind v com cmt]. cbn [g_indent g_value g_comma g_comment] in *. subst ind.
  specialize (Hi s eq_refl). unfold group_elems. cbn [g_indent g_value g_comma g_comment app group_loop]. rewrite Hi. f_equal.
  destruct v as [v|].
  - specialize (D v eq_refl). assert (EV : elem_of v = EVal v) by (destruct v; try reflexivity; discriminate). rewrite EV.
    cbn [app group_loop g_value g_indent g_comma g_comment]. destruct com as [com|].
    + cbn [app group_loop g_value g_indent g_comma g_comment]. rewrite (Hc com eq_refl). destruct cmt; reflexivity.
    + destruct cmt; reflexivity.
  - destruct com as [com|]; [exfalso; apply Hv; discriminate || reflexivity|]. destruct cmt as [cmt|]; [exfalso; apply Hm; discriminate || reflexivity|]. reflexivity.
Qed.
Lemma loop_value g v rest this : group_ok g -> g_indent g = None -> g_value g = Some v -> is_deco v = false ->
  group_loop (group_elems g ++ rest) this = match g_value this with None => match this with mkGroup i _ c m => group_loop (group_elems g ++ rest) (mkGroup i None c m) end
                                            | Some _ => this :: group_loop rest g end.
Proof.
  intros (_ & _ & Hc & _) E Ev D. destruct g as [ind w com cmt]. cbn [g_indent g_value g_comma g_comment] in *. subst ind w.
  destruct this as [i [w|] c m]; [|reflexivity]. unfold group_elems. cbn [g_indent g_value g_comma g_comment app].
  assert (EV : elem_of v = EVal v) by (destruct v; try reflexivity; discriminate). rewrite EV. cbn [app group_loop g_value]. f_equal.
  destruct com as [com|].
  - cbn [app group_loop g_value g_indent g_comma g_comment]. rewrite (Hc com eq_refl). destruct cmt; reflexivity.
  - destruct cmt; reflexivity.
Qed.
Lemma loop_first g v rest : group_ok g -> g_indent g = None -> g_value g = Some v -> is_deco v = false ->
  group_loop (group_elems g ++ rest) empty_group = group_loop rest g.
Proof.
  intros (_ & _ & Hc & _) E Ev D. destruct g as [ind w com cmt]. cbn [g_indent g_value g_comma g_comment] in *. subst ind w.
  unfold group_elems. cbn [g_indent g_value g_comma g_comment app].
  assert (EV : elem_of v = EVal v) by (destruct v; try reflexivity; discriminate). rewrite EV. cbn [app group_loop g_value empty_group g_indent g_comma g_comment].
  destruct com as [com|].
  - cbn [app group_loop g_value g_indent g_comma g_comment]. rewrite (Hc com eq_refl). destruct cmt; reflexivity.
  - destruct cmt; reflexivity.
Qed.
Lemma bare_value g : group_ok g -> g_indent g = None -> exists v, g_value g = Some v.
Proof.
  intros (Hn & _ & _ & Hv & Hm) E. destruct g as [ind [v|] com cmt]; cbn in *; [eauto|]. subst ind. exfalso.
  destruct com; [apply Hv; discriminate || reflexivity|]. destruct cmt; [apply Hm; discriminate || reflexivity|]. apply Hn. reflexivity.
Qed.
Definition plain_groups (gs : list (agroup item)) : Prop := Forall (fun g => forall v, g_value g = Some v -> is_deco v = false) gs.
Lemma group_loop_id gs : forall this, groups_ok (match g_value this with Some _ => true | None => false end) gs -> plain_groups gs ->
  group_loop (flat_map group_elems gs) this = this :: gs.
Proof.
  induction gs as [|g gs IH]; intros this H F; [reflexivity|]. cbn [flat_map]. destruct H as (Hg & Hf & H). inversion F as [|? ? Fg Fs]; subst.
  destruct (g_indent g) as [s|] eqn:Ei.
  - rewrite (loop_indent g s) by assumption. rewrite IH by assumption. reflexivity.
  - destruct (bare_value g Hg Ei) as [v Ev]. rewrite (loop_value g v) by auto. specialize (Hf eq_refl). destruct (g_value this); [|discriminate].
    rewrite IH by assumption. reflexivity.
Qed.
Lemma groups_true b gs : groups_ok b gs -> filter g_bool gs = gs.
Proof.
  revert b. induction gs as [|g gs IH]; intros b H; [reflexivity|]. destruct H as (Hg & _ & H). cbn [filter]. rewrite (IH _ H).
  destruct Hg as [Hn _]. destruct g as [[] [] [] []]; try reflexivity. congruence.
Qed.
Lemma regroup_id gs : groups_ok true gs -> plain_groups gs -> regroup gs = gs.
Proof.
  intros H F. unfold regroup, group_values. destruct gs as [|g gs]; [reflexivity|]. pose proof (groups_true _ _ H) as Ht. cbn [flat_map]. destruct H as (Hg & Hf & H). inversion F as [|? ? Fg Fs]; subst.
  destruct (g_indent g) as [s|] eqn:Ei.
  - rewrite (loop_indent g s) by assumption. rewrite group_loop_id by assumption. cbn [filter] in *. exact Ht.
  - destruct (bare_value g Hg Ei) as [v Ev]. rewrite (loop_first g v) by auto. rewrite group_loop_id by assumption. exact Ht.
Qed.

(** * Arrays of tables made while parsing *)
Lemma insert_end {A} (l : list A) x : list_insert (List.length l) x l = l ++ [x].
Proof. unfold list_insert. rewrite firstn_all, skipn_all. reflexivity. Qed.
Lemma aot_index_end n : aot_index n (Z.of_nat n) = n.
Proof. unfold aot_index. destruct (Z.of_nat n <? 0)%Z eqn:E; [lia|]. rewrite E. rewrite Z.leb_refl. reflexivity. Qed.
Lemma aot_made l : forall a, fold_left (fun l x => aot_append l true aot_trivia x) l a = a ++ l.
Proof.
  induction l as [|x l IH]; intros a; [rewrite app_nil_r; reflexivity|]. cbn [fold_left]. rewrite IH. unfold aot_append, aot_insert. rewrite aot_index_end. cbn [first_spaces aot_trivia tr_indent].
  rewrite insert_end, <- app_assoc. reflexivity.
Qed.

(** * The copy *)
(** A parsed item or container [i] whose copy, and the copy of what [parsing(b)] makes of it, is itself. *)
Lemma copy_id b :
  (forall i noaot, wfi true noaot true i -> copy_item i = i /\ copy_item (parsing_item b i) = parsing_item b i)
  /\ (forall c noaot, wfc true noaot true c -> copy_cont c = c /\ copy_cont (parsing_cont b c) = parsing_cont b c).
Proof.
  apply item_cont_ind; try (intros; split; reflexivity).
  - intros gs t ml F na H. inversion H as [| |? Hl|? Hd|? ? ? G V|]; subst; try discriminate.
    assert (E : copy_item (IArray gs t ml) = IArray gs t ml); [|split; exact E]. cbn [copy_item]. f_equal.
    match goal with |- regroup ?m = _ => assert (Em : m = gs) end.
    { clear G H. induction gs as [|g gs IH]; [reflexivity|]. inversion F as [|? ? Fg Fs]; subst. inversion V as [|? ? Vg Vs]; subst. cbn [map]. rewrite (IH Fs Vs). f_equal.
      destruct g as [ind [v|] com cmt]; [|reflexivity]. unfold gP, oP in Fg. cbn [g_value] in *. destruct (Vg v eq_refl) as [_ W]. destruct (Fg _ W) as [-> _]. reflexivity. }
    rewrite Em. apply regroup_id; [exact G|]. unfold plain_groups. eapply Forall_impl; [|exact V]. cbn beta. intros g Hg v Ev. apply (Hg v Ev).
  - intros c t n IH na H. inversion H as [| |? Hl|? Hd| |]; subst; try discriminate. destruct (IH true) as [E _]; [assumption|].
    split; cbn [parsing_item copy_item]; rewrite E; reflexivity.
  - intros c m IH na H. apply wfi_table in H as [H _]. destruct (IH _ H) as [E1 E2]. split; cbn [parsing_item copy_item]; [rewrite E1|rewrite E2]; reflexivity.
  - intros l n p t IH na H. apply wfi_aot in H as (_ & Ht & H & ->). rewrite (Ht eq_refl) in *.
    assert (E : forall f : container * tmeta -> container * tmeta, (forall x, In x l -> match f x with (c, m) => (copy_cont c, m) end = f x) -> copy_item (IAoT (map f l) n true aot_trivia) = IAoT (map f l) n true aot_trivia).
    { intros f Hf. cbn [copy_item]. unfold aot_make. rewrite aot_made. cbn [app]. f_equal. rewrite map_map. apply map_ext_in. intros x Hx. exact (Hf x Hx). }
    split.
    + specialize (E (fun x => x)). rewrite map_id in E. apply E. intros [c m] Hin. rewrite Forall_forall in *. destruct (IH _ Hin na) as [W _]; [apply (H _ Hin)|]. cbn [fst] in W. rewrite W. reflexivity.
    + cbn [parsing_item]. apply E. intros [c m] Hin. rewrite Forall_forall in *. destruct (IH _ Hin na) as [_ W]; [apply (H _ Hin)|]. cbn [fst] in W. rewrite W. reflexivity.
  - intros body m p tks d IH na H. inversion H as [? ? ? ? Hb Hm Ht Hf Ho]; subst. destruct Ho as [Ho _].
    assert (E : map (fun kv : option skey * item => match kv with (k, v) => (k, copy_item v) end) body = body).
    { rewrite <- (map_id body) at 2. apply map_ext_in. intros [k v] Hin. rewrite Forall_forall in *. destruct (IH _ Hin na) as [W _]; [apply (Hb _ Hin)|]. cbn [snd] in W. rewrite W. reflexivity. }
    split.
    + cbn [copy_cont]. rewrite E. f_equal. symmetry. exact Ho.
    + cbn [parsing_cont copy_cont]. rewrite map_map.
      assert (E2 : map (fun x : option skey * item => let '(k, v) := let '(k, v) := x in (k, parsing_item b v) in (k, copy_item v)) body
                   = map (fun kv : option skey * item => match kv with (k, v) => (k, parsing_item b v) end) body).
      { apply map_ext_in. intros [k v] Hin. rewrite Forall_forall in *. destruct (IH _ Hin na) as [_ W]; [apply (Hb _ Hin)|]. cbn [snd] in W. rewrite W. reflexivity. }
      rewrite E2. f_equal. rewrite Ho. unfold firsts. apply firsts_keys. rewrite map_map. apply map_ext. intros [[k|] v]; reflexivity.
Qed.
Theorem parsed_copy s d : no_indented_bracket s -> parse s = Ok d -> copy_cont d = d.
Proof.
  intros Hs H. unfold parse, parse_gen in H.
  assert (TT : tri s true false false false (parse_doc false (parse_fuel s)) (fun st => lineend st /\ p_mark st = idx st) (fun c _ => copy_cont c = c)).
  { unfold parse_doc. eapply tri_bind; [Reader.good|apply (body_loop_ok s true false false false true); try discriminate; auto; apply wfc_empty|]. intros c st Hs' [Hc Hn]. revert st Hs' Hn.
    match goal with |- forall st, _ -> _ -> match ?m st with _ => _ end => change (tri s true false false false m nextp (fun c _ => copy_cont c = c)) end.
    eapply tri_bind; [Reader.good|apply (tables_loop_ok s true false false false true); try discriminate; auto; exact Hc|]. intros c'. apply tri_ret. intros st Hc'. eapply copy_id, Hc'. }
  specialize (TT (start s) eq_refl). destruct (parse_doc false (parse_fuel s) (start s)) as [[c|e0] st]; cbn [fst] in H; [|discriminate]. inversion H; subst.
  apply TT. split; [right; left; reflexivity|reflexivity].
Qed.

(** * With indented tables: only the (never printed) trivia of arrays of tables differ *)
Fixpoint strip_item (i : item) : item :=
  match i with
  | ITable c m => ITable (strip_cont c) m
  | IAoT l n p _ => IAoT (map (fun x => match x with (c, m) => (strip_cont c, m) end) l) n p aot_trivia
  | _ => i
  end
with strip_cont (c : container) : container :=
  match c with
  | Cont body m p tks d => Cont (map (fun kv => match kv with (k, v) => (k, strip_item v) end) body) m p tks d
  end.
Lemma copy_strip b :
  (forall i noaot, wfi false noaot true i -> copy_item (parsing_item b i) = strip_item (parsing_item b i))
  /\ (forall c noaot, wfc false noaot true c -> copy_cont (parsing_cont b c) = strip_cont (parsing_cont b c)).
Proof.
  apply item_cont_ind; try (intros; reflexivity).
  - intros gs t ml _ na H. cbn [parsing_item strip_item]. apply (proj1 (copy_id b) _ false). inversion H; subst; try discriminate. apply wf_array; assumption.
  - intros c t n _ na H. cbn [parsing_item strip_item]. apply (proj1 (copy_id b) _ false). inversion H; subst; try discriminate. apply wf_inline; assumption.
  - intros c m IH na H. apply wfi_table in H as [H _]. cbn [parsing_item copy_item strip_item]. rewrite (IH _ H). reflexivity.
  - intros l n p t IH na H. apply wfi_aot in H as (_ & _ & H & ->). cbn [parsing_item copy_item strip_item]. unfold aot_make. rewrite aot_made. cbn [app]. f_equal. rewrite !map_map. apply map_ext_in.
    intros [c m] Hin. rewrite Forall_forall in *. pose proof (IH _ Hin) as W. cbn [fst] in W. rewrite (W na); [reflexivity|apply (H _ Hin)].
  - intros body m p tks d IH na H. inversion H as [? ? ? ? Hb Hm Ht Hf Ho]; subst. destruct Ho as [Ho _]. cbn [parsing_cont copy_cont strip_cont]. rewrite !map_map.
    assert (E2 : map (fun x : option skey * item => let '(k, v) := let '(k, v) := x in (k, parsing_item b v) in (k, copy_item v)) body
                 = map (fun x : option skey * item => let '(k, v) := let '(k, v) := x in (k, parsing_item b v) in (k, strip_item v)) body).
    { apply map_ext_in. intros [k v] Hin. rewrite Forall_forall in *. pose proof (IH _ Hin) as W. cbn [snd] in W. rewrite (W na); [reflexivity|apply (Hb _ Hin)]. }
    rewrite E2. f_equal. rewrite Ho. unfold firsts. apply firsts_keys. rewrite map_map. apply map_ext. intros [[k|] v]; reflexivity.
Qed.
Lemma strip_id b :
  (forall i, wfi false true true i -> strip_item (parsing_item b i) = parsing_item b i)
  /\ (forall c, wfc false true true c -> strip_cont (parsing_cont b c) = parsing_cont b c).
Proof.
  apply item_cont_ind; try (intros; reflexivity).
  - intros c m IH H. apply wfi_table in H as [H _]. cbn [parsing_item strip_item]. rewrite (IH H). reflexivity.
  - intros l n p t IH H. apply wfi_aot in H as (H & _). discriminate.
  - intros body m p tks d IH H. inversion H as [? ? ? ? Hb Hm Ht Hf Ho]; subst. cbn [parsing_cont strip_cont]. rewrite map_map. f_equal. apply map_ext_in.
    intros [k v] Hin. rewrite Forall_forall in *. pose proof (IH _ Hin) as W. cbn [snd] in W. rewrite W; [reflexivity|apply (Hb _ Hin)].
Qed.
Lemma super_strip c m : table_is_super (strip_cont c) m = table_is_super c m.
Proof.
  destruct c as [body cm p tks d]. unfold table_is_super. cbn [strip_cont c_dict c_map c_body]. destruct (tm_super m); [reflexivity|].
  destruct d as [|k [|]]; try reflexivity. destruct (map_get k cm) as [[i|]|]; try reflexivity. rewrite nth_error_map.
  destruct (nth_error body i) as [[ok v]|]; cbn [option_map]; [|reflexivity]. destruct v; reflexivity.
Qed.
Lemma strip_text :
  (forall i, (forall k pfx dot, etext pfx dot (k, strip_item i) = etext pfx dot (k, i)))
  /\ (forall c, c_dict (strip_cont c) = c_dict c
       /\ has_plain (c_body (strip_cont c)) = has_plain (c_body c)
       /\ forall pfx dot, btext pfx dot (c_body (strip_cont c)) = btext pfx dot (c_body c)).
Proof.
  apply item_cont_ind; try (intros; reflexivity).
  - intros c m (D & P & T) [k|] pfx dot; cbn [etext strip_item].
    + rewrite super_strip, !render_table_eq. unfold table_head. rewrite super_strip, D, P, T. reflexivity.
    + cbn [item_string]. rewrite !cont_string_eq. apply T.
  - intros l n p t F [k|] pfx dot; cbn [etext strip_item item_string]; rewrite flat_map_map; apply flat_map_eq; intros [c m] Hin;
      rewrite Forall_forall in F; destruct (F _ Hin) as (D & P & T); cbn [fst snd] in *.
    + rewrite !render_aot_eq, T. reflexivity.
    + rewrite !cont_string_eq. apply T.
  - intros body m p tks d F. cbn [strip_cont c_body c_dict]. split; [reflexivity|]. split.
    + unfold has_plain. clear F. induction body as [|[k v] body IH]; [reflexivity|]. cbn [map existsb snd]. rewrite IH. destruct v; reflexivity.
    + intros pfx dot. unfold btext. rewrite flat_map_map. apply flat_map_eq. intros [k v] Hin. rewrite Forall_forall in F. apply (F _ Hin).
Qed.
Theorem parsed_copy_strip s d : parse s = Ok d -> copy_cont d = strip_cont d.
Proof.
  intros H. unfold parse, parse_gen in H.
  assert (TT : tri s false false false false (parse_doc false (parse_fuel s)) (fun st => lineend st /\ p_mark st = idx st) (fun c _ => copy_cont c = strip_cont c)).
  { unfold parse_doc. eapply tri_bind; [Reader.good|apply (body_loop_ok s false false false false true); try discriminate; auto; apply wfc_empty|]. intros c st Hs' [Hc Hn]. revert st Hs' Hn.
    match goal with |- forall st, _ -> _ -> match ?m st with _ => _ end => change (tri s false false false false m nextp (fun c _ => copy_cont c = strip_cont c)) end.
    eapply tri_bind; [Reader.good|apply (tables_loop_ok s false false false false true); try discriminate; auto; exact Hc|]. intros c'. apply tri_ret. intros st Hc'. eapply copy_strip, Hc'. }
  specialize (TT (start s) eq_refl). destruct (parse_doc false (parse_fuel s) (start s)) as [[c|e0] st]; cbn [fst] in H; [|discriminate]. inversion H; subst.
  apply TT. split; [right; left; reflexivity|reflexivity].
Qed.
Theorem parsed_copy_noaot s d : no_double_bracket s -> parse s = Ok d -> copy_cont d = d.
Proof.
  intros Hb H. unfold parse, parse_gen in H.
  assert (TT : tri s false true false false (parse_doc false (parse_fuel s)) (fun st => lineend st /\ p_mark st = idx st) (fun c _ => copy_cont c = c)).
  { unfold parse_doc. eapply tri_bind; [Reader.good|apply (body_loop_ok s false true false false true); try discriminate; auto; apply wfc_empty|]. intros c st Hs' [Hc Hn]. revert st Hs' Hn.
    match goal with |- forall st, _ -> _ -> match ?m st with _ => _ end => change (tri s false true false false m nextp (fun c _ => copy_cont c = c)) end.
    eapply tri_bind; [Reader.good|apply (tables_loop_ok s false true false false true); try discriminate; auto; exact Hc|]. intros c'. apply tri_ret. intros st Hc'. rewrite (proj2 (copy_strip _) _ _ Hc'). apply strip_id, Hc'. }
  specialize (TT (start s) eq_refl). destruct (parse_doc false (parse_fuel s) (start s)) as [[c|e0] st]; cbn [fst] in H; [|discriminate]. inversion H; subst.
  apply TT. split; [right; left; reflexivity|reflexivity].
Qed.
