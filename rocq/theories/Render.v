(** Render: the three container renderers as one, and rendering of a container
    to which the parser appended an entry. *)
From Verif Require Import Base Source Utils Items Container Parser Lemmas Wf.
From Coq Require Import ZifyBool ZifyNat ZifyN.
Open Scope nat_scope.

(** The text of one body entry: [pfx] is the header text of the enclosing table,
    [dot] tells whether the enclosing table belongs to a dotted key. *)
Definition etext (pfx : option str) (dot : bool) (kv : option skey * item) : str :=
  match kv with
  | (Some k', v) =>
      match v with
      | ITable c' m' => render_table c' m' k' (if table_is_super c' m' && k_dotted k' && negb dot then None else pfx)
      | IAoT l _ _ _ => flat_map (fun p => render_aot_table (fst p) (snd p) (prefixed pfx (k_orig k'))) l
      | v => simple_text (Some k') (item_trivia v) (item_string v) (if dot then pfx else None)
      end
  | (None, v) => item_string v
  end.
Definition btext (pfx : option str) (dot : bool) (body : list (option skey * item)) : str := flat_map (etext pfx dot) body.

Lemma flat_map_eq {A B} (f g : A -> list B) l : (forall x, In x l -> f x = g x) -> flat_map f l = flat_map g l.
Proof. induction l as [|x l IH]; intros H; [reflexivity|]. cbn. rewrite H by (left; reflexivity). rewrite IH; [reflexivity|]. intros; apply H; right; assumption. Qed.
Lemma btext_app pfx dot a b : btext pfx dot (a ++ b) = btext pfx dot a ++ btext pfx dot b.
Proof. apply flat_map_app. Qed.
Lemma btext_one pfx dot x : btext pfx dot [x] = etext pfx dot x.
Proof. unfold btext. cbn. apply app_nil_r. Qed.

Lemma cont_string_eq c : cont_string c = btext None false (c_body c).
Proof.
  destruct c as [body m p tks d]. cbn [cont_string c_body]. unfold btext. apply flat_map_eq. intros [[k|] v] _; [|reflexivity].
  destruct v as [| | | | | |c' m'|l n q t]; try reflexivity.
  - cbn [etext]. destruct (_ && _); reflexivity.
  - cbn [etext prefixed]. apply flat_map_eq. intros [c' m'] _. reflexivity.
Qed.
(** container.py:507-536: the text before the entries of a table *)
Definition table_key (m : tmeta) (k : skey) (pfx : option str) : str :=
  match tm_disp m with Some d => d | None => prefixed pfx (k_orig k) end.
Definition has_plain (body : list (option skey * item)) : bool :=
  existsb (fun kv : option skey * item => negb (is_table_or_aot (snd kv) || is_wsitem (snd kv) || is_null (snd kv))) body.
Definition table_head (c : container) (m : tmeta) (k : skey) (pfx : option str) : str :=
  let t := tm_trivia m in
  if negb (table_is_super c m) || (has_plain (c_body c) && negb (k_dotted k))
  then header (if tm_aot m then [chLBR; chLBR] else [chLBR]) (table_key m k pfx)
              (if tm_aot m then [chRBR; chRBR] else [chRBR]) t
       ++ (if negb (inb chLF (tr_trail t)) && Nat.ltb 0 (List.length (c_dict c)) then [chLF] else [])
  else if str_eqb (tr_indent t) [chLF] then tr_indent t else [].
Lemma render_table_eq c m k pfx :
  render_table c m k pfx = table_head c m k pfx ++ btext (Some (table_key m k pfx)) (k_dotted k) (c_body c).
Proof.
  destruct c as [body cm p tks d]. cbn [render_table]. unfold table_head. cbn [c_body c_dict]. fold (table_key m k pfx). f_equal.
  - replace (has_plain body) with (existsb (fun kv : option skey * item => match kv with (_, v) => negb (is_table_or_aot v || is_wsitem v || is_null v) end) body); [reflexivity|].
    unfold has_plain. induction body as [|[a b] body IH]; [reflexivity|]. cbn. rewrite IH. reflexivity.
  - unfold btext. apply flat_map_eq. intros [[k'|] v] _; [|reflexivity].
    destruct v as [| | | | | |c' m'|l n q t]; try reflexivity.
    + cbn [etext]. destruct (table_is_super c' m'); [|reflexivity]. cbn [andb]. destruct (_ && _); reflexivity.
    + cbn [etext prefixed]. apply flat_map_eq. intros [c' m'] _. reflexivity.
Qed.
Lemma render_aot_eq c m prefix :
  render_aot_table c m prefix = header [chLBR; chLBR] prefix [chRBR; chRBR] (tm_trivia m) ++ btext (Some prefix) false (c_body c).
Proof.
  destruct c as [body cm p tks d]. cbn [render_aot_table c_body]. f_equal.
  unfold btext. apply flat_map_eq. intros [[k'|] v] _; [|reflexivity].
  destruct v as [| | | | | |c' m'|l n q t]; try reflexivity.
  - cbn [etext negb]. rewrite andb_true_r. destruct (table_is_super c' m'); [|reflexivity]. cbn [andb]. destruct (k_dotted k'); reflexivity.
  - cbn [etext prefixed]. apply flat_map_eq. intros [c' m'] _. reflexivity.
Qed.

(** Rendering does not look at the [parsed] flag. *)
Lemma super_parsing b c m : table_is_super (parsing_cont b c) m = table_is_super c m.
Proof.
  destruct c as [body cm p tks d]. unfold table_is_super. cbn [parsing_cont c_dict c_map c_body]. destruct (tm_super m); [reflexivity|].
  destruct d as [|k [|]]; try reflexivity. destruct (map_get k cm) as [[i|]|]; try reflexivity. rewrite nth_error_map.
  destruct (nth_error body i) as [[ok v]|]; cbn [option_map]; [|reflexivity]. destruct v; reflexivity.
Qed.
Lemma flat_map_map {A B C} (f : A -> B) (g : B -> list C) l : flat_map g (map f l) = flat_map (fun x => g (f x)) l.
Proof. induction l as [|x l IH]; [reflexivity|]. cbn. rewrite IH. reflexivity. Qed.
Lemma parsing_text b :
  (forall i, (forall k pfx dot, etext pfx dot (k, parsing_item b i) = etext pfx dot (k, i)))
  /\ (forall c, c_dict (parsing_cont b c) = c_dict c
       /\ has_plain (c_body (parsing_cont b c)) = has_plain (c_body c)
       /\ forall pfx dot, btext pfx dot (c_body (parsing_cont b c)) = btext pfx dot (c_body c)).
Proof.
  apply item_cont_ind; try (intros; reflexivity).
  - intros c m (D & P & T) [k|] pfx dot; cbn [etext parsing_item].
    + rewrite super_parsing, !render_table_eq. unfold table_head. rewrite super_parsing, D, P, T. reflexivity.
    + cbn [item_string]. rewrite !cont_string_eq. apply T.
  - intros l n p t F [k|] pfx dot; cbn [etext parsing_item item_string]; rewrite flat_map_map; apply flat_map_eq; intros [c m] Hin;
      rewrite Forall_forall in F; destruct (F _ Hin) as (D & P & T); cbn [fst snd] in *.
    + rewrite !render_aot_eq, T. reflexivity.
    + rewrite !cont_string_eq. apply T.
  - intros body m p tks d F. cbn [parsing_cont c_body c_dict]. split; [reflexivity|]. split.
    + unfold has_plain. clear F. induction body as [|[k v] body IH]; [reflexivity|]. cbn [map existsb snd]. rewrite IH. destruct v; reflexivity.
    + intros pfx dot. unfold btext. rewrite flat_map_map. apply flat_map_eq. intros [k v] Hin. rewrite Forall_forall in F. apply (F _ Hin).
Qed.
Lemma parsing_cont_string b c : cont_string (parsing_cont b c) = cont_string c.
Proof. rewrite !cont_string_eq. apply parsing_text. Qed.

Lemma set_name_text k i kk pfx dot : etext pfx dot (kk, set_name k i) = etext pfx dot (kk, i).
Proof.
  destruct i as [| | | | | |c m|l n p t]; try reflexivity.
  - cbn [set_name]. destruct m as [t a su [nm|] di]; [reflexivity|]. destruct kk as [kk|]; [|reflexivity]. cbn. rewrite !render_table_eq. reflexivity.
  - cbn [set_name]. destruct n; reflexivity.
Qed.

(** ** The shape of [append] on a container that is being parsed (strict runs) *)
(** The entry that [append(key, item)] adds. *)
Definition norm_entry (k : option key) (it : item) : option skey * item :=
  match k with
  | Some (KDotted (name :: ((_ :: _) as rest)) sep _) =>
      (Some (set_dotted name), set_name (k_key name) (ITable (dotted_table rest sep it) (super_meta None)))
  | _ => (kstr k, match kstr k with Some k' => set_name (k_key k') it | None => it end)
  end.
Definition is_dotted_key (k : option key) : bool := match k with Some (KDotted (_ :: _ :: _) _ _) => true | _ => false end.
Inductive app_shape (n : nat) (c : container) (k : option key) (it : item) (c' : container) : Prop :=
  | sh_end : c_body c' = c_body c ++ [norm_entry k it] -> app_shape n c k it c'
  | sh_super b0 k' ck cc cmeta ic im r :
      k = Some (KSingle k') -> k_dotted k' = false -> k_dotted ck = false -> k_orig ck = k_orig k' ->
      c_body c = b0 ++ [(Some ck, ITable cc cmeta)] -> snd (norm_entry k it) = ITable ic im ->
      table_is_super cc cmeta = true -> table_is_super ic im = true ->
      fold_res (fun acc (kv : option skey * item) => table_append n Own true (fst acc) (snd acc) (option_map KSingle (fst kv)) (snd kv))
               (c_body ic) (cc, cmeta) = Ok r ->
      c_body c' = b0 ++ [(Some ck, ITable (fst r) (snd r))] -> app_shape n c k it c'
  | sh_aot b0 k' ck l nm ap t il nm' ap' t' :
      k = Some (KSingle k') -> k_orig ck = k_orig k' ->
      c_body c = b0 ++ [(Some ck, IAoT l nm ap t)] -> snd (norm_entry k it) = IAoT il nm' ap' t' ->
      c_body c' = b0 ++ [(Some ck, IAoT (fold_left (fun l x => aot_append l ap t x) il l) nm ap t)] -> app_shape n c k it c'.

Lemma raw_append_body c k it c' : raw_append c k it = Ok c' -> c_body c' = c_body c ++ [(k, it)].
Proof.
  destruct c as [body m p tks d]. unfold raw_append. destruct k as [k|]; [|intros H; inversion H; reflexivity].
  intros H. apply rbind_inv in H as (m' & _ & H). inversion H. reflexivity.
Qed.
Lemma nth_last_split {A} (l : list A) i x : nth_error l i = Some x -> Nat.eqb (S i) (List.length l) = true ->
  exists b, l = b ++ [x] /\ i = List.length b.
Proof.
  intros H E. apply Nat.eqb_eq in E. destruct (nth_error_split l i H) as (a & b & -> & Ha). rewrite app_length in E. cbn in E.
  destruct b; [|cbn in E; lia]. exists a. auto.
Qed.
Lemma list_set_end {A} (b : list A) x y : list_set (List.length b) y (b ++ [x]) = b ++ [y].
Proof. induction b as [|z b IH]; [reflexivity|]. cbn. rewrite IH. reflexivity. Qed.

Section Shape.
Variable n : nat.
Lemma append_shape c k it v c' : wfc false false false c -> key_fine k -> append (S n) Own true c k it v = Ok c' ->
  (is_dotted_key k = true -> is_table_or_aot it = false) /\ exists n', app_shape n' c k it c' /\ n' < S n.
Proof.
  revert k it v c'.
  assert (G : forall n k it v c', wfc false false false c -> match k with Some (KSingle _) | None => True | _ => False end ->
     append (S n) Own true c k it v = Ok c' -> app_shape n c k it c').
  { clear n. intros n k it v c' Hc Hk H. cbn [append] in H.
    assert (Hk2 : match k with Some (KDotted (name :: ((_ :: _) as rest)) sep _) => False | _ => True end) by (destruct k as [[]|]; auto; contradiction).
    assert (Nn : norm_entry k it = (kstr k, match kstr k with Some k' => set_name (k_key k') it | None => it end)).
    { destruct k as [[]|]; try contradiction; reflexivity. }
    destruct k as [[k|]|]; try contradiction; clear Hk Hk2; cbn [kstr] in *; inversion Hc as [body m tks d Hb Hm Ht]; subst c; rewrite pre_append_parsed in H.
    2:{ rewrite append_end_parsed in H. apply raw_append_body in H. apply sh_end. rewrite Nn. exact H. }
    set (it1 := set_name (k_key k) it) in *. cbv zeta in H.
    assert (AE : forall c', append_end (Cont body m true tks d) (Some k) it1 = Ok c' -> app_shape n (Cont body m true tks d) (Some (KSingle k)) it c').
    { intros c0 E. rewrite append_end_parsed in E. apply raw_append_body in E. apply sh_end. rewrite Nn. exact E. }
    apply rbind_inv in H as (present & _ & H). destruct present; cbn [negb] in H; [|apply AE; exact H].
    destruct (map_get (k_key k) m) as [ci|] eqn:Em; [|discriminate].
    destruct (Hm _ _ Em) as (N1 & N2 & N3). set (pos := match ci with One x => x | Many l => last l 0 end) in *.
    assert (Hpos : keyed (match ci with Many _ => true | One _ => false end) body (k_key k) pos).
    { rewrite Forall_forall in N3. apply N3. destruct ci; cbn [idxs] in *; [left; reflexivity|apply last_in; exact (roomy_ne _ N1)]. }
    destruct Hpos as (sk & cur & Ec & K & T). rewrite Ec in H. clearbody pos.
    destruct it1 as [| | | | | |ic im|il iln ilp ilt] eqn:Ei; try discriminate.
    - destruct (is_table_or_aot cur); cbn [negb] in H; [|discriminate]. destruct (tm_aot im); [cbn [is_shared] in H; discriminate|].
      destruct (is_aot cur); [discriminate|]. destruct (item_is_super cur) eqn:Es.
      2:{ destruct (negb (table_is_super ic im)); [discriminate|]. apply AE, H. }
      destruct (table_is_super ic im) eqn:Es2; [|destruct (k_dotted sk); [discriminate|]; apply AE, H].
      apply rbind_inv in H as (cond & Hcond & H). destruct cond.
      { cbn [negb] in H. rewrite andb_false_r, Nat.ltb_irrefl in H. apply rbind_inv in H as (c1 & R & H). apply raw_append_body in R.
        assert (c1 = c') by (destruct v; [apply rbind_inv in H as (? & _ & H)|]; inversion H; reflexivity). subst c1. apply sh_end. rewrite Nn. exact R. }
      destruct (k_dotted k || k_dotted sk) eqn:Ed; [discriminate|]. apply orb_false_iff in Ed as [Ed1 Ed2].
      cbn [andb] in H. destruct (is_last pos body) eqn:El; cbn [negb] in H; [|discriminate].
      destruct (str_eqb (k_orig sk) (k_orig k)) eqn:Eo; cbn [negb] in H; [|discriminate]. apply str_eqb_eq in Eo.
      destruct cur as [| | | | | |cc cmeta|]; try discriminate. apply rbind_inv in H as (r & R & H). inversion H; subst c'.
      destruct (nth_last_split _ _ _ Ec El) as (b0 & -> & ->). rewrite list_set_end.
      apply (sh_super n _ _ it _ b0 k sk cc cmeta ic im r); auto; rewrite Nn; reflexivity.
    - destruct cur as [| | | | | | |l nm ap t]; try discriminate. cbn [is_shared andb] in H.
      destruct (is_last pos body) eqn:El; cbn [negb] in H; [|discriminate].
      destruct (str_eqb (k_orig sk) (k_orig k)) eqn:Eo; cbn [negb] in H; [|discriminate]. apply str_eqb_eq in Eo. inversion H; subst c'.
      destruct (nth_last_split _ _ _ Ec El) as (b0 & -> & ->). rewrite list_set_end.
      apply (sh_aot n _ _ it _ b0 k sk l nm ap t il iln ilp ilt); auto; rewrite Nn; reflexivity. }
  intros k it v c' Hc Hk H. destruct k as [[k|ks sep orig]|].
  - split; [discriminate|]. exists n. split; [eapply G; eauto; exact I|lia].
  - cbn [key_fine] in Hk. destruct ks as [|name [|x rest]]; cbn in Hk; try lia. cbn [append] in H.
    destruct (is_table_or_aot it); [discriminate|]. split; [reflexivity|]. destruct n as [|n']; [discriminate|].
    exists n'. split; [|lia]. apply G in H; [|exact Hc|exact I]. inversion H.
    + apply sh_end. exact H0.
    + inversion H0; subst. discriminate.
    + discriminate.
  - split; [discriminate|]. exists n. split; [eapply G; eauto; exact I|lia].
Qed.
End Shape.
