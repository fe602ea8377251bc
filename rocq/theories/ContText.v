(** ContText: what adding, assigning and deleting does to the text. *)
From Verif Require Import Base Source Utils Items Container Parser Lemmas Wf Errors Render Consist OMap ContOps.
From Coq Require Import ZifyBool ZifyNat ZifyN.
Open Scope nat_scope.

(** * Parsed documents are consistent *)
Inductive ok_item : item -> Prop :=
  | oi_table c m : ok_cont c -> ok_item (ITable c m)
  | oi_aot l n p t : Forall (fun x => ok_cont (fst x)) l -> ok_item (IAoT l n p t)
  | oi_other i : is_table_or_aot i = false -> ok_item i
with ok_cont : container -> Prop :=
  | oc c : consistent c -> c_parsed c = false -> Forall (fun kv => ok_item (snd kv)) (c_body c) -> ok_cont c.
Lemma nth_map_inv {A B} (f : A -> B) l i y : nth_error (map f l) i = Some y -> exists x, nth_error l i = Some x /\ f x = y.
Proof. rewrite nth_error_map. destruct (nth_error l i); cbn; [intros H; inversion H; eauto|discriminate]. Qed.
Lemma parsing_ok : (forall i, wfi false false false i -> ok_item (parsing_item false i)) /\ (forall c, wfc false false false c -> ok_cont (parsing_cont false c)).
Proof.
  apply item_cont_ind; try (intros; apply oi_other; reflexivity).
  - intros c m IH H. apply wfi_table in H as [H _]. cbn [parsing_item]. apply oi_table, IH, H.
  - intros l n p t IH H. apply wfi_aot in H as (_ & _ & H & _). cbn [parsing_item]. apply oi_aot. rewrite Forall_forall in *. intros x Hx. apply in_map_iff in Hx as ([c m] & <- & Hin).
    cbn [fst]. apply (IH _ Hin). apply (H _ Hin).
  - intros body m p tks d IH H. inversion H as [? ? ? ? Hb Hm Ht [Hc Hd] Ho]; subst. cbn [parsing_cont]. constructor; [|reflexivity|].
    + split; [|split]; cbn [c_body c_map c_dict]; [| |exact Hd].
      * intros k ci Hk. destruct (Hm _ _ Hk) as (A & B & C). split; [exact A|]. split; [exact B|]. eapply Forall_impl; [|exact C]. intros i (sk & v & N & K & T). exists sk, (parsing_item false v).
        rewrite nth_error_map, N. repeat split; auto. intros X. specialize (T X). destruct v; try discriminate; reflexivity.
      * intros i sk v N. apply nth_map_inv in N as ([k0 v0] & N & E). inversion E; subst. eapply Hc, N.
    + cbn [c_body]. rewrite Forall_forall in *. intros x Hx. apply in_map_iff in Hx as ([k0 v0] & <- & Hin). cbn [snd]. apply (IH _ Hin). apply (Hb _ Hin).
Qed.
Theorem parsed_ok s d : parse s = Ok d -> ok_cont d.
Proof.
  intros H. unfold parse, parse_gen in H.
  assert (TT : tri s false false false false (parse_doc false (parse_fuel s)) (fun st => lineend st /\ p_mark st = idx st) (fun c _ => ok_cont c)).
  { unfold parse_doc. eapply tri_bind; [Reader.good|apply body_loop_ok; try discriminate; apply wfc_empty|]. intros c st Hs [Hc Hn]. revert st Hs Hn.
    match goal with |- forall st, _ -> _ -> match ?m st with _ => _ end => change (tri s false false false false m nextp (fun c _ => ok_cont c)) end.
    eapply tri_bind; [Reader.good|apply tables_loop_ok; try discriminate; exact Hc|]. intros c'. apply tri_ret. intros st Hc'. apply parsing_ok, Hc'. }
  specialize (TT (start s) eq_refl). destruct (parse_doc false (parse_fuel s) (start s)) as [[c|e0] st]; cbn [fst] in H; [|discriminate]. inversion H; subst.
  apply TT. split; [right; left; reflexivity|reflexivity].
Qed.

(** * One entry replaced *)
Lemma split_at {A} (l : list A) i x : nth_error l i = Some x -> l = firstn i l ++ x :: skipn (S i) l.
Proof. revert i. induction l as [|y l IH]; intros [|i] H; cbn in H; try discriminate; [inversion H; reflexivity|]. cbn [firstn skipn app]. f_equal. apply IH, H. Qed.
Lemma set_split {A} (l : list A) i x y : nth_error l i = Some x -> list_set i y l = firstn i l ++ y :: skipn (S i) l.
Proof. revert i. induction l as [|z l IH]; intros [|i] H; cbn in H; try discriminate; [reflexivity|]. cbn [list_set firstn skipn app]. f_equal. apply IH, H. Qed.
Lemma btext_split pfx dot b1 e b2 : btext pfx dot (b1 ++ e :: b2) = btext pfx dot b1 ++ etext pfx dot e ++ btext pfx dot b2.
Proof. rewrite btext_app. reflexivity. Qed.

(** The line of an entry, as [as_string] writes it: indent, key, separator, value,
    comment, line end.  [keytext] is the key as written (with its prefix, for an
    entry of a dotted key). *)
Definition line (keytext : str) (k : skey) (v : item) : str :=
  tr_indent (item_trivia v) ++ keytext ++ k_sep k ++ item_string v ++ tr_cws (item_trivia v) ++ tr_comment (item_trivia v) ++ tr_trail (item_trivia v).
Lemma etext_plain pfx dot k v : plain v -> etext pfx dot (Some k, v) = line (prefixed (if dot then pfx else None) (k_orig k)) k v.
Proof. destruct v; cbn; intros H; try reflexivity; destruct H. Qed.
Lemma etext_null pfx dot : etext pfx dot (None, INull) = [].
Proof. reflexivity. Qed.

(** * Editing a table somewhere inside a container *)
Definition same_head (c c' : container) (tm : tmeta) : Prop :=
  table_is_super c tm = table_is_super c' tm /\ forall k pfx, table_head c tm k pfx = table_head c' tm k pfx.
(** [nested R c c']: [c'] is [c] with one table, at any depth (or [c] itself),
    edited by [R]; the headers of the tables around it are not affected. *)
Inductive nested (R : container -> container -> Prop) : container -> container -> Prop :=
  | n_here c c' : R c c' -> nested R c c'
  | n_table b1 k tc tm b2 tc' m p tks d : nested R tc tc' -> same_head tc tc' tm ->
      nested R (Cont (b1 ++ (Some k, ITable tc tm) :: b2) m p tks d) (Cont (b1 ++ (Some k, ITable tc' tm) :: b2) m p tks d)
  | n_aot b1 k l1 tc tm l2 n q t b2 tc' m p tks d : nested R tc tc' ->
      nested R (Cont (b1 ++ (Some k, IAoT (l1 ++ (tc, tm) :: l2) n q t) :: b2) m p tks d) (Cont (b1 ++ (Some k, IAoT (l1 ++ (tc', tm) :: l2) n q t) :: b2) m p tks d).
(** [local E t t']: the texts are equal but for one stretch, which changes as [E] says. *)
Definition local (E : str -> str -> Prop) (t t' : str) : Prop := exists a o n b, t = a ++ o ++ b /\ t' = a ++ n ++ b /\ E o n.
Lemma local_in E x t t' y : local E t t' -> local E (x ++ t ++ y) (x ++ t' ++ y).
Proof. intros (a & o & n & b & -> & -> & H). exists (x ++ a), o, n, (b ++ y). rewrite <- !app_assoc. auto. Qed.
Lemma nested_text (R : container -> container -> Prop) E : (forall c c', R c c' -> forall pfx dot, local E (btext pfx dot (c_body c)) (btext pfx dot (c_body c'))) ->
  forall c c', nested R c c' -> forall pfx dot, local E (btext pfx dot (c_body c)) (btext pfx dot (c_body c')).
Proof.
  intros HR c c' H. induction H as [c c' H|b1 k tc tm b2 tc' m p tks d H IH [H1 H2]|b1 k l1 tc tm l2 n q t b2 tc' m p tks d H IH]; intros pfx dot; [apply HR, H| |]; cbn [c_body]; rewrite !btext_split; apply local_in.
  - cbn [etext]. rewrite H1. rewrite !render_table_eq, H2. specialize (IH (Some (table_key tm k (if table_is_super tc' tm && k_dotted k && negb dot then None else pfx))) (k_dotted k)).
    pose proof (local_in E (table_head tc' tm k (if table_is_super tc' tm && k_dotted k && negb dot then None else pfx)) _ _ [] IH) as X. rewrite !app_nil_r in X. exact X.
  - cbn [etext]. rewrite !flat_map_app. cbn [flat_map fst snd]. apply local_in. rewrite !render_aot_eq.
    pose proof (local_in E (header [chLBR; chLBR] (prefixed pfx (k_orig k)) [chRBR; chRBR] (tm_trivia tm)) _ _ [] (IH (Some (prefixed pfx (k_orig k))) false)) as X. rewrite !app_nil_r in X. exact X.
Qed.
Lemma nested_string (R : container -> container -> Prop) E : (forall c c', R c c' -> forall pfx dot, local E (btext pfx dot (c_body c)) (btext pfx dot (c_body c'))) ->
  forall c c', nested R c c' -> local E (cont_string c) (cont_string c').
Proof. intros HR c c' H. rewrite !cont_string_eq. eapply nested_text; eauto. Qed.

(** ** Deletion *)
Definition deleted (k : str) (sk : skey) (v : item) (c c' : container) : Prop :=
  consistent c /\ k_key sk = k /\ plain v /\ (exists i, map_get k (c_map c) = Some (One i) /\ nth_error (c_body c) i = Some (Some sk, v)) /\ remove c k = Ok c'.
Definition line_gone (sk : skey) (v : item) (o n : str) : Prop := n = [] /\ exists pfx, o = line (prefixed pfx (k_orig sk)) sk v.
Lemma deleted_local k sk v c c' : deleted k sk v c c' -> forall pfx dot, local (line_gone sk v) (btext pfx dot (c_body c)) (btext pfx dot (c_body c')).
Proof.
  intros (Hc & K & P & (i & Hm & Hn) & Hr) pfx dot. destruct (remove_ok c k (One i) Hc Hm) as (c1 & R1 & _ & _ & _ & R2 & _). rewrite Hr in R1. inversion R1; subst c1. rewrite R2. cbn [idxs fold_left].
  rewrite (set_split _ _ _ _ Hn). rewrite (split_at _ _ _ Hn) at 1. rewrite !btext_split, etext_null, etext_plain by exact P. eexists _, _, [], _. split; [reflexivity|]. split; [reflexivity|]. split; [reflexivity|]. eauto.
Qed.
(** A table that keeps its header when an entry is deleted. *)
Lemma deleted_head k sk v c c' tm : deleted k sk v c c' -> tm_super tm = Some false -> (inb chLF (tr_trail (tm_trivia tm)) = true \/ 0 < List.length (c_dict c')) -> same_head c c' tm.
Proof.
  intros (Hc & K & P & (i & Hm & Hn) & Hr) Hs Hh. destruct (remove_ok c k (One i) Hc Hm) as (c1 & R1 & _ & R3 & _ & _ & _). rewrite Hr in R1. inversion R1; subst c1.
  unfold same_head, table_is_super. rewrite Hs. split; [reflexivity|]. intros k0 pfx. unfold table_head, table_is_super. rewrite Hs. cbn [negb orb]. f_equal.
  destruct (inb chLF _); [reflexivity|]. destruct Hh as [Hh|Hh]; [discriminate|]. cbn [negb andb].
  assert (X : 0 < List.length (c_dict c)).
  { destruct (c_dict c); [rewrite R3 in Hh; cbn in Hh; lia|cbn; lia]. }
  apply Nat.ltb_lt in Hh. apply Nat.ltb_lt in X. rewrite Hh, X. reflexivity.
Qed.

(** ** Replacement *)
Definition replaced (k : str) (sk : skey) (v0 v : item) (c c' : container) : Prop :=
  consistent c /\ k_key sk = k /\ plain v0 /\ plain v /\ (exists i, map_get k (c_map c) = Some (One i) /\ nth_error (c_body c) i = Some (Some sk, v0)) /\ set_item c k v = Ok c'.
Lemma replaced_eq k sk v0 v c c' : replaced k sk v0 v c c' -> exists i, map_get k (c_map c) = Some (One i) /\ nth_error (c_body c) i = Some (Some sk, v0)
  /\ c' = put c i (Some sk, copy_trivia v v0) (map_set k (One i) (map_del k (c_map c))).
Proof.
  intros (Hc & <- & P0 & P & (i & Hm & Hn) & Hs). exists i. split; [exact Hm|]. split; [exact Hn|]. unfold set_item in Hs. destruct (app_fuel_pos c (Some (KSingle (skey_of_str (k_key sk)))) v) as [n E]. rewrite E in Hs.
  change (contains (S (S (S n))) c (k_key sk)) with (match map_get (k_key sk) (c_map c) with
      | None => Ok false | Some (One _) => Ok true
      | Some (Many l) => match proxy (S (S n)) c l with Ok _ => Ok true | Err (NonExistentKeyE _) => Ok false | Err e => Err e end end) in Hs.
  rewrite Hm in Hs at 1. cbn [rbind] in Hs. rewrite (replace_plain _ _ _ _ _ _ _ Hc Hm Hn P0 P) in Hs. inversion Hs. reflexivity.
Qed.
(** The stretch that changes: the value, and its comment if the new value brings
    one.  What stands before it is the key and the separator; what stands after
    it is the old line end. *)
Definition value_changed (sk : skey) (v0 v : item) (o n : str) : Prop :=
  let t0 := item_trivia v0 in let t := item_trivia v in
  o = k_orig sk ++ k_sep sk ++ item_string v0 ++ tr_cws t0 ++ tr_comment t0 ++ tr_trail t0
  /\ n = k_orig sk ++ k_sep sk ++ item_string (copy_trivia v v0) ++ or_str (tr_cws t) (tr_cws t0) ++ or_str (tr_comment t) (tr_comment t0) ++ tr_trail t0.
Lemma copy_fields v v0 : plain v -> let t := item_trivia (copy_trivia v v0) in
  tr_indent t = tr_indent (item_trivia v0) /\ tr_cws t = or_str (tr_cws (item_trivia v)) (tr_cws (item_trivia v0)) /\ tr_comment t = or_str (tr_comment (item_trivia v)) (tr_comment (item_trivia v0)) /\ tr_trail t = tr_trail (item_trivia v0).
Proof. destruct v; cbn; intros H; try (destruct H); auto. Qed.
Lemma prefixed_end pfx s : exists a, prefixed pfx s = a ++ s.
Proof. destruct pfx; cbn [prefixed]; [eexists; rewrite app_assoc; reflexivity|exists []; reflexivity]. Qed.
Lemma put_body c i e m : c_body (put c i e m) = list_set i e (c_body c).
Proof. destruct c; reflexivity. Qed.
Lemma replaced_local k sk v0 v c c' : replaced k sk v0 v c c' -> forall pfx dot, local (value_changed sk v0 v) (btext pfx dot (c_body c)) (btext pfx dot (c_body c')).
Proof.
  intros H pfx dot. pose proof H as (_ & _ & P0 & P & _). destruct (replaced_eq _ _ _ _ _ _ H) as (i & Hm & Hn & ->). rewrite put_body, (set_split _ _ _ _ Hn). rewrite (split_at _ _ _ Hn) at 1.
  rewrite !btext_split, !etext_plain by auto using plain_copy. apply local_in. unfold line. destruct (copy_fields v v0 P) as (-> & -> & -> & ->).
  destruct (prefixed_end (if dot then pfx else None) (k_orig sk)) as [a ->]. exists (tr_indent (item_trivia v0) ++ a),
    (k_orig sk ++ k_sep sk ++ item_string v0 ++ tr_cws (item_trivia v0) ++ tr_comment (item_trivia v0) ++ tr_trail (item_trivia v0)),
    (k_orig sk ++ k_sep sk ++ item_string (copy_trivia v v0) ++ or_str (tr_cws (item_trivia v)) (tr_cws (item_trivia v0)) ++ or_str (tr_comment (item_trivia v)) (tr_comment (item_trivia v0)) ++ tr_trail (item_trivia v0)), [].
  rewrite !app_nil_r, <- !app_assoc. split; [reflexivity|]. split; [reflexivity|]. split; reflexivity.
Qed.
Lemma kinds_head c c' tm : c_dict c' = c_dict c -> (forall x, map_get x (c_map c') = map_get x (c_map c)) ->
  map (fun kv : option skey * item => (is_table_or_aot (snd kv), is_wsitem (snd kv) || is_null (snd kv))) (c_body c') = map (fun kv : option skey * item => (is_table_or_aot (snd kv), is_wsitem (snd kv) || is_null (snd kv))) (c_body c) ->
  same_head c c' tm.
Proof.
  intros Hd Hm Hk. assert (S : table_is_super c tm = table_is_super c' tm).
  { unfold table_is_super. destruct (tm_super tm); [reflexivity|]. rewrite Hd. destruct (c_dict c) as [|x []]; try reflexivity. rewrite Hm. destruct (map_get x (c_map c)) as [[i|]|]; try reflexivity.
    assert (X : option_map (fun kv : option skey * item => (is_table_or_aot (snd kv), is_wsitem (snd kv) || is_null (snd kv))) (nth_error (c_body c') i) = option_map (fun kv : option skey * item => (is_table_or_aot (snd kv), is_wsitem (snd kv) || is_null (snd kv))) (nth_error (c_body c) i)) by (rewrite <- !nth_error_map, Hk; reflexivity).
    destruct (nth_error (c_body c') i) as [[]|], (nth_error (c_body c) i) as [[]|]; cbn in X; try discriminate; inversion X; congruence. }
  split; [exact S|]. intros k pfx. unfold table_head. rewrite S, Hd. replace (has_plain (c_body c')) with (has_plain (c_body c)); [reflexivity|].
  unfold has_plain. revert Hk. generalize (c_body c) (c_body c'). induction l as [|[a b] l IH]; intros [|[a' b'] l'] E; cbn in E; try discriminate; [reflexivity|].
  inversion E as [[E1 E2 E3]]. cbn [existsb snd]. rewrite (IH _ E3). rewrite <- !orb_assoc, E1, E2. reflexivity.
Qed.
Lemma kinds_set body i e e' : nth_error body i = Some e -> is_table_or_aot (snd e') = is_table_or_aot (snd e) -> is_wsitem (snd e') || is_null (snd e') = is_wsitem (snd e) || is_null (snd e) ->
  map (fun kv : option skey * item => (is_table_or_aot (snd kv), is_wsitem (snd kv) || is_null (snd kv))) (list_set i e' body) = map (fun kv : option skey * item => (is_table_or_aot (snd kv), is_wsitem (snd kv) || is_null (snd kv))) body.
Proof. intros Hn Q1 Q2. rewrite (set_split _ _ _ _ Hn). rewrite (split_at _ _ _ Hn) at 3. rewrite !map_app. cbn [map]. rewrite Q1, Q2. reflexivity. Qed.
Lemma replaced_head k sk v0 v c c' tm : replaced k sk v0 v c c' -> same_head c c' tm.
Proof.
  intros H. pose proof H as (Hc & K & P0 & P & _). destruct (replaced_eq _ _ _ _ _ _ H) as (i & Hm & Hn & ->). subst k. destruct (put_ok c i sk v0 (copy_trivia v v0) Hc Hm Hn) as (_ & D & _ & _ & _ & M).
  apply kinds_head; [exact D|exact M|]. rewrite put_body. eapply kinds_set; [exact Hn| |]; cbn [snd]; rewrite ?plain_not_table by auto using plain_copy; [reflexivity|].
  pose proof (plain_copy v v0 P) as Pc. destruct (copy_trivia v v0), v0; try (destruct Pc); try (destruct P0); reflexivity.
Qed.
(** Replacement anywhere: no condition on headers is needed. *)
Inductive inside (R : container -> container -> Prop) : container -> container -> Prop :=
  | i_here c c' : R c c' -> inside R c c'
  | i_table b1 k tc tm b2 tc' m p tks d : inside R tc tc' ->
      inside R (Cont (b1 ++ (Some k, ITable tc tm) :: b2) m p tks d) (Cont (b1 ++ (Some k, ITable tc' tm) :: b2) m p tks d)
  | i_aot b1 k l1 tc tm l2 n q t b2 tc' m p tks d : inside R tc tc' ->
      inside R (Cont (b1 ++ (Some k, IAoT (l1 ++ (tc, tm) :: l2) n q t) :: b2) m p tks d) (Cont (b1 ++ (Some k, IAoT (l1 ++ (tc', tm) :: l2) n q t) :: b2) m p tks d).
Lemma inside_nested (R : container -> container -> Prop) : (forall c c' tm, R c c' -> same_head c c' tm) -> forall c c', inside R c c' -> nested R c c' /\ forall tm, same_head c c' tm.
Proof.
  intros HR c c' H. induction H as [c c' H|b1 k tc tm b2 tc' m p tks d H [IH1 IH2]|b1 k l1 tc tm l2 n q t b2 tc' m p tks d H [IH1 IH2]].
  - split; [apply n_here, H|]. intros tm. apply HR, H.
  - split; [apply n_table; auto|]. intros tm0. apply kinds_head; try reflexivity. cbn [c_body]. rewrite !map_app. reflexivity.
  - split; [apply n_aot; auto|]. intros tm0. apply kinds_head; try reflexivity. cbn [c_body]. rewrite !map_app. reflexivity.
Qed.

(** ** Addition *)
(** Entries that stand above the first table header. *)
Definition above (kv : option skey * item) : Prop := is_table_or_aot (snd kv) = true -> match fst kv with Some k => k_dotted k = true | None => False end.
Lemma last_index_above body : (forall k v, In (k, v) body -> is_table_or_aot v = true -> k <> None) -> Forall above (firstn (last_index_before_table body) body).
Proof.
  unfold last_index_before_table. intros Hk.
  assert (G : forall pre b acc, (forall k v, In (k, v) (pre ++ b) -> is_table_or_aot v = true -> k <> None) -> acc <= List.length pre -> Forall above pre ->
    Forall above (firstn (last_index_loop b (List.length pre) acc) (pre ++ b))).
  { intros pre b. revert pre. induction b as [|[k v] b IH]; intros pre acc Hk' Ha Hp; cbn [last_index_loop].
    - rewrite app_nil_r. rewrite <- (firstn_skipn acc pre) in Hp. apply Forall_app in Hp. apply Hp.
    - assert (St : forall acc', acc' <= S (List.length pre) -> above (k, v) -> Forall above (firstn (last_index_loop b (S (List.length pre)) acc') (pre ++ (k, v) :: b))).
      { intros acc' Ha' Hv. specialize (IH (pre ++ [(k, v)]) acc'). rewrite app_length in IH. cbn [List.length] in IH. rewrite <- app_assoc in IH. cbn [app] in IH.
        replace (List.length pre + 1) with (S (List.length pre)) in IH by lia. apply IH; [exact Hk'|exact Ha'|]. apply Forall_app. split; [exact Hp|]. constructor; [exact Hv|constructor]. }
      destruct (is_null v) eqn:En; [apply St; [lia|]; intros X; destruct v; discriminate|].
      destruct (match v with IWs _ f => negb f | _ => false end) eqn:Ew; [apply St; [lia|]; intros X; destruct v; discriminate|].
      destruct (is_table_or_aot v && negb (match k with Some k => k_dotted k | None => false end)) eqn:Et.
      + rewrite firstn_app. replace (acc - List.length pre) with 0 by lia. cbn [firstn]. rewrite app_nil_r. rewrite <- (firstn_skipn acc pre) in Hp. apply Forall_app in Hp. apply Hp.
      + apply St; [lia|]. intros X. cbn [fst snd] in *. rewrite X in Et. cbn [andb] in Et. destruct k; [apply negb_false_iff in Et; exact Et|discriminate]. }
  apply (G [] body 0 Hk (le_n 0) (Forall_nil _)).
Qed.
(** The rest starts with a table header, possibly after blank lines, or is blank. *)
Definition blank_entry (kv : option skey * item) : Prop := is_null (snd kv) = true \/ exists s, snd kv = IWs s false.
Definition header_entry (kv : option skey * item) : Prop := is_table_or_aot (snd kv) = true /\ match fst kv with Some k => k_dotted k = false | None => True end.
Definition tables_part (b : list (option skey * item)) : Prop := exists ws r, b = ws ++ r /\ Forall blank_entry ws /\ match r with [] => True | e :: _ => header_entry e end.
Lemma last_index_tables body : tables_part (skipn (last_index_before_table body) body).
Proof.
  unfold last_index_before_table.
  assert (G : forall b pre acc, acc <= List.length pre -> Forall blank_entry (skipn acc pre) -> tables_part (skipn (last_index_loop b (List.length pre) acc) (pre ++ b))).
  { induction b as [|[k v] b IH]; intros pre acc Ha Hp; cbn [last_index_loop].
    - rewrite app_nil_r. exists (skipn acc pre), []. rewrite app_nil_r. auto.
    - assert (St : forall acc', acc' <= S (List.length pre) -> Forall blank_entry (skipn acc' (pre ++ [(k, v)])) -> tables_part (skipn (last_index_loop b (S (List.length pre)) acc') (pre ++ (k, v) :: b))).
      { intros acc' Ha' Hv. specialize (IH (pre ++ [(k, v)]) acc'). rewrite app_length in IH. cbn [List.length] in IH. rewrite <- app_assoc in IH. cbn [app] in IH.
        replace (List.length pre + 1) with (S (List.length pre)) in IH by lia. apply IH; assumption. }
      assert (Sk : skipn acc (pre ++ [(k, v)]) = skipn acc pre ++ [(k, v)]) by (rewrite skipn_app; replace (acc - List.length pre) with 0 by lia; reflexivity).
      destruct (is_null v) eqn:En; [apply St; [lia|]; rewrite Sk; apply Forall_app; split; [exact Hp|]; constructor; [left; exact En|constructor]|].
      destruct (match v with IWs _ f => negb f | _ => false end) eqn:Ew.
      { apply St; [lia|]; rewrite Sk; apply Forall_app; split; [exact Hp|]. constructor; [|constructor]. right. destruct v as [s f| | | | | | |]; try discriminate. exists s. destruct f; [discriminate|reflexivity]. }
      destruct (is_table_or_aot v && negb (match k with Some k => k_dotted k | None => false end)) eqn:Et.
      + apply andb_true_iff in Et as [Et1 Et2]. rewrite skipn_app. replace (acc - List.length pre) with 0 by lia. cbn [skipn]. exists (skipn acc pre), ((k, v) :: b). split; [reflexivity|]. split; [exact Hp|].
        split; [exact Et1|]. cbn [fst]. destruct k; [apply negb_true_iff in Et2; exact Et2|exact I].
      + apply St; [lia|]. rewrite <- (app_nil_r (pre ++ _)) at 1. rewrite skipn_all2; [constructor|]. rewrite app_nil_r, app_length. cbn. lia. }
  exact (G body [] 0 (le_n 0) (Forall_nil _)).
Qed.
(** Entries as the parser and the API make them: comments and whitespace have no
    key; a table under a dotted key has no header of its own. *)
Definition entry_regular (kv : option skey * item) : Prop :=
  match kv with
  | (None, v) => is_wsitem v = true \/ (exists t, v = IComment t) \/ is_null v = true
  | (Some k, v) => plain v \/ (is_table_or_aot v = true /\ (k_dotted k = true -> exists c m, v = ITable c m /\ tm_super m = Some true))
  end.
(** The line end that is added behind the entries [b]: only behind a value or a
    comment whose line has none. *)
Definition added_nl (b : list (option skey * item)) : str :=
  match rev b with
  | (_, v) :: _ => if is_wsitem v || is_null v || is_table_or_aot v || inb chLF (tr_trail (item_trivia v)) then [] else [chLF]
  | [] => []
  end.
Lemma close_snoc it b e : close_line it (b ++ [e]) = b ++ [if ends_line it (snd e) then e else (fst e, add_nl_trail (snd e))].
Proof.
  unfold close_line. rewrite app_length. cbn [List.length]. replace (List.length b + 1) with (S (List.length b)) by lia. rewrite nth_error_app2, Nat.sub_diag by lia. cbn [nth_error]. destruct e as [k v]. cbn [fst snd].
  destruct (ends_line it v); [reflexivity|]. apply list_set_end.
Qed.
Lemma nl_line s k v : plain v -> line s k (add_nl_trail v) = line s k v ++ [chLF].
Proof.
  intros P. unfold line, add_nl_trail. assert (E : forall x, item_trivia (set_trivia x v) = x) by (intros; destruct v; try (destruct P); reflexivity). rewrite E. unfold with_trail. cbn [tr_indent tr_cws tr_comment tr_trail].
  replace (item_string (set_trivia _ v)) with (item_string v) by (destruct v; try (destruct P); reflexivity). rewrite <- !app_assoc. reflexivity.
Qed.
Lemma close_text it b pfx dot : is_table_or_aot it = false -> Forall entry_regular b -> Forall above b -> btext pfx dot (close_line it b) = btext pfx dot b ++ added_nl b.
Proof.
  intros Hi Hr Ha. destruct (rev b) as [|[k v] r] eqn:E.
  - assert (b = []) by (rewrite <- (rev_involutive b), E; reflexivity). subst. reflexivity.
  - assert (Eb : b = rev r ++ [(k, v)]) by (rewrite <- (rev_involutive b), E; reflexivity). unfold added_nl. rewrite E. rewrite Eb, close_snoc. rewrite !btext_app, !btext_one, <- app_assoc. f_equal. cbn [fst snd].
    assert (R : entry_regular (k, v) /\ above (k, v)) by (rewrite Eb in Hr, Ha; apply Forall_app in Hr as [_ Hr]; apply Forall_app in Ha as [_ Ha]; split; [apply (Forall_inv Hr)|apply (Forall_inv Ha)]). destruct R as [R A]. clear -R A Hi.
    unfold ends_line. rewrite Hi. destruct k as [k|]; cbn [entry_regular] in R.
    + destruct R as [P|[T D]].
      * rewrite (plain_not_table _ P), (plain_not_null _ P). replace (is_wsitem v) with false by (destruct v; try (destruct P); reflexivity). replace (ends_with_whitespace v) with false by (destruct v; try (destruct P); reflexivity).
        cbn [orb]. destruct (inb chLF _); [rewrite app_nil_r; reflexivity|]. rewrite !etext_plain; [apply nl_line, P|exact P|]. destruct v; try (destruct P); exact I.
      * rewrite T. rewrite !orb_true_r. cbn [orb]. rewrite app_nil_r. specialize (A T). cbn [fst] in A. destruct (D A) as (c & m & -> & S). destruct (_ || _); [reflexivity|]. unfold add_nl_trail. cbn [set_trivia item_trivia etext].
        assert (X : forall t, table_is_super c (set_tm_trivia t m) = true) by (intros; unfold table_is_super; cbn [tm_super set_tm_trivia]; rewrite S; reflexivity).
        assert (X' : table_is_super c m = true) by (unfold table_is_super; rewrite S; reflexivity). rewrite X, X', !render_table_eq. unfold table_head. rewrite X, X', A. rewrite andb_false_r. reflexivity.
    + destruct R as [R|[[t R]|R]].
      * rewrite R. cbn [orb]. rewrite app_nil_r. reflexivity.
      * subst v. cbn [is_wsitem is_null is_table_or_aot is_table is_aot orb ends_with_whitespace item_trivia]. destruct (inb chLF _); [rewrite app_nil_r; reflexivity|]. unfold add_nl_trail. cbn [set_trivia item_trivia etext item_string with_trail].
        unfold comment_string. cbn [tr_indent tr_cws tr_comment tr_trail with_trail]. rewrite <- !app_assoc. reflexivity.
      * rewrite R. rewrite !orb_true_r. cbn [orb]. rewrite app_nil_r. destruct v; try discriminate. destruct (_ || _); reflexivity.
Qed.
(** A new plain entry: which line it becomes, and where. *)
Theorem added_text c k v c' : consistent c -> c_parsed c = false -> plain v -> Forall entry_regular (c_body c) -> map_get k (c_map c) = None ->
  cappend false c (Some (KSingle (skey_of_str k))) v = Ok c' ->
  exists b1 b2, c_body c = b1 ++ b2 /\ Forall above b1 /\ tables_part b2 /\
    forall pfx dot, btext pfx dot (c_body c') = btext pfx dot b1 ++ added_nl b1 ++ line (prefixed (if dot then pfx else None) (k_orig (skey_of_str k))) (skey_of_str k) v ++ btext pfx dot b2.
Proof.
  intros Hc Hp P Hr Hm H. unfold cappend in H. destruct (app_fuel_pos c (Some (KSingle (skey_of_str k))) v) as [n E]. rewrite E, append_new in H by assumption.
  destruct (append_end_new c (skey_of_str k) v Hc P Hm) as (c1 & b1' & Q1 & S & Q3). rewrite H in Q1. inversion Q1; subst c1. specialize (Q3 Hp). destruct S as [S1 S2 _ _ _ _ _ _ _].
  unfold plain_place in *. rewrite Hp in *. exists (firstn (last_index_before_table (c_body c)) (c_body c)), (skipn (last_index_before_table (c_body c)) (c_body c)).
  assert (Ab : Forall above (firstn (last_index_before_table (c_body c)) (c_body c))).
  { apply last_index_above. intros k0 v0 Hin T ->. rewrite Forall_forall in Hr. apply Hr in Hin. cbn in Hin. destruct Hin as [X|[[t ->]|X]]; [destruct v0; discriminate|discriminate|destruct v0; discriminate]. }
  split; [exact S1|]. split; [exact Ab|]. split; [apply last_index_tables|]. intros pfx dot. rewrite S2, Q3, !btext_app, btext_one, etext_plain by exact P.
  rewrite close_text; [rewrite <- app_assoc; reflexivity|apply plain_not_table, P| |exact Ab]. rewrite S1 in Hr. apply Forall_app in Hr. apply Hr.
Qed.
