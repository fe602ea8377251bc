(** Property theorems: documents and tables as containers (C17, C18, C19, C20, C21).

    Vocabulary: [container] is the Container object (body, index map, dict keys).
    [cont_string c] is [c.as_string()].  [cop], [ostep], [orun] (OMap.v) are the
    operations of a plain ordered dict; [cstep], [crun] (ContOps.v) are the same
    operations done by the Container's methods: [CAdd k v] is [doc.add(k, v)],
    [CSet k v] is [doc[k] = v], [CDel k] is [del doc[k]].
    [plain v]: a scalar, an array or an inline table (not a table, array of tables,
    comment, whitespace or Null).  [view c]: the keys in iteration order, each with
    the value found under it without its trivia (None: an out-of-order table).
    [consistent c]: body, index map and dict agree (Consist.v). *)
From Verif Require Import Base Source Utils Items Container Arrays Parser Api Lemmas Wf Errors Render Consist OMap ContOps ContText.
Open Scope nat_scope.

Definition lf : str := [chLF].
Definition op_plain (o : cop item) : Prop := match o with CAdd _ v | CSet _ v => plain v | CDel _ => True end.
Definition int_val (z : Z) : item := IVal (SInt z (dec_Z z)) (mkTrivia [] [] [] lf).
Definition doc_of (s : str) : option container := match parse s with Ok d => Some d | Err _ => None end.
Definition edit (s : str) (os : list (cop item)) : option str := option_map (fun c => cont_string (crun c os)) (doc_of s).

(** Every parsed document is consistent, and so is every table inside it. *)
Theorem C17_parsed_consistent : forall s d, parse s = Ok d -> consistent d.
Proof. intros s d H. apply parsed_ok in H. destruct H. assumption. Qed.
Print Assumptions C17_parsed_consistent.

(** C17.  What a user can observe of a container agrees with the ordered dict [m]. *)
Definition agrees (c : container) (m : omap (option item)) : Prop :=
  c_dict c = map fst m                                                            (* list(c), len(c) *)
  /\ (forall n k v, oget k m = Some (Some v) -> contains (S n) c k = Ok true      (* k in c *)
        /\ exists i, get_item c k = Some i /\ strip i = v)                        (* c[k] *)
  /\ (forall n k, oget k m = None -> contains (S n) c k = Ok false /\ get_item c k = None).
Lemma view_agrees c : consistent c -> agrees c (view c).
Proof.
  intros H. split; [unfold view; rewrite map_map; cbn [fst]; symmetry; apply map_id|]. split; intros n k.
  - intros v Hg. rewrite oget_view in Hg by exact H. destruct (map_get k (c_map c)) as [[i|l]|] eqn:E; [| |discriminate].
    + split; [cbn [contains]; rewrite E; reflexivity|]. inversion Hg as [Hg']. destruct (get_item c k) as [x|]; [|discriminate]. exists x. inversion Hg'. auto.
    + unfold get_item in Hg. rewrite E in Hg. discriminate.
  - intros Hg. rewrite oget_view in Hg by exact H. destruct (map_get k (c_map c)) eqn:E; [discriminate|]. split; [cbn [contains]; rewrite E; reflexivity|]. unfold get_item. rewrite E. reflexivity.
Qed.
Definition all_plain (m : omap (option item)) : Prop := Forall (fun kv => exists i, snd kv = Some i /\ plain i) m.
Lemma oget_in {A} k (m : omap A) x : oget k m = Some x -> exists k', In (k', x) m.
Proof. induction m as [|[a b] m IH]; cbn [oget]; [discriminate|]. destruct (okey_eqb k a); [intros E; inversion E; exists a; left; reflexivity|]. intros E. destruct (IH E) as [k' Hk]. exists k'. right. exact Hk. Qed.
Lemma oset_plain k i m : plain i -> all_plain m -> all_plain (oset k (Some i) m).
Proof. intros Hi H. induction H as [|[a b] m H1 H2 IH]; cbn [oset]; [repeat constructor; exists i; auto|]. destruct (okey_eqb k a); constructor; auto. exists i. auto. Qed.
Lemma odel_plain k m : all_plain m -> all_plain (odel k m).
Proof. unfold odel. intros H. induction H as [|[a b] m H1 H2 IH]; cbn [filter]; [constructor|]. destruct (negb _); [constructor; assumption|exact IH]. Qed.
Lemma plain_allowed m o : all_plain m -> op_plain o -> allowed m o /\ match ostep m (shown o) with ODone m' => all_plain m' | _ => True end.
Proof.
  intros Hm Ho. assert (G : forall k x, oget k m = Some x -> exists i, x = Some i /\ plain i).
  { intros k x Hx. apply oget_in in Hx as [k' Hk]. unfold all_plain in Hm. rewrite Forall_forall in Hm. apply (Hm _ Hk). }
  destruct o as [k v|k v|k]; cbn [op_plain allowed shown cop_map ostep] in *.
  - split; [split; [exact Ho|]; intros E; destruct (G _ _ E) as (i & D & _); discriminate|]. destruct (oget k m); [exact I|]. apply oset_plain; [apply plain_strip, Ho|exact Hm].
  - split; [split; [exact Ho|]; destruct (oget k m) as [x|] eqn:E; [|exact I]; destruct (G _ _ E) as (i & -> & P); exact P|]. apply oset_plain; [apply plain_strip, Ho|exact Hm].
  - split; [exact I|]. destruct (oget k m); [apply odel_plain, Hm|exact I].
Qed.
Lemma plain_allowed_all os : forall m, all_plain m -> Forall op_plain os -> allowed_all m os.
Proof.
  induction os as [|o os IH]; intros m Hm Ho; cbn [allowed_all]; [exact I|]. inversion Ho; subst. destruct (plain_allowed m o Hm) as [A B]; [assumption|]. split; [exact A|].
  apply IH; [|assumption]. destruct (ostep m (shown o)); assumption.
Qed.

(** Any history of plain values on an empty document: the document is the ordered
    dict under the same history; an operation raises exactly when the dict refuses it. *)
Theorem C17_history : forall os, Forall op_plain os ->
  agrees (crun (empty_cont false) os) (orun [] (map shown os)).
Proof.
  intros os H. assert (C : consistent (empty_cont false)) by (split; [intros k ci X; discriminate|exact full_empty]).
  destruct (run_view os (empty_cont false) C) as [A B]; [apply plain_allowed_all; [constructor|exact H]|]. change (view (empty_cont false)) with (@nil (okey * option item)) in B. rewrite <- B. apply view_agrees, A.
Qed.
Print Assumptions C17_history.
Theorem C17_errors : forall os o, Forall op_plain os -> op_plain o ->
  let c := crun (empty_cont false) os in let m := orun [] (map shown os) in
  match ostep m (shown o) with
  | ODone m' => exists c', cstep c o = Ok c' /\ agrees c' m'
  | ODuplicate k => cstep c o = Err (KeyAlreadyPresentE k)
  | OMissing k => cstep c o = Err (NonExistentKeyE k)
  end.
Proof.
  intros os o H Ho c m. assert (C : consistent (empty_cont false)) by (split; [intros k ci X; discriminate|exact full_empty]).
  assert (P : forall os m, all_plain m -> Forall op_plain os -> all_plain (orun m (map shown os))).
  { clear. induction os as [|o os IH]; intros m Hm Ho; cbn [map orun]; [exact Hm|]. inversion Ho; subst. apply IH; [|assumption]. destruct (plain_allowed m o Hm) as [_ B]; [assumption|]. destruct (ostep m (shown o)); assumption. }
  destruct (run_view os (empty_cont false) C) as [A B]; [apply plain_allowed_all; [constructor|exact H]|]. change (view (empty_cont false)) with (@nil (okey * option item)) in B. fold c m in A, B.
  assert (Al : allowed (view c) o). { rewrite B. apply plain_allowed; [|exact Ho]. apply P; [constructor|exact H]. }
  pose proof (step_view c o A Al) as S. rewrite B in S. destruct (ostep m (shown o)); [|exact S|exact S]. destruct S as (c' & S1 & S2 & <-). exists c'. split; [exact S1|]. apply view_agrees, S2.
Qed.
Print Assumptions C17_errors.
(** Any parsed document (also any table in it): the same, as long as no plain value
    is assigned over a table ([allowed]). *)
Theorem C17_parsed_partial : forall s d os, parse s = Ok d -> allowed_all (view d) os ->
  agrees (crun d os) (orun (view d) (map shown os)) /\ consistent (crun d os).
Proof. intros s d os H Ha. destruct (run_view os d (C17_parsed_consistent s d H) Ha) as [A B]. rewrite <- B. split; [apply view_agrees, A|exact A]. Qed.
Print Assumptions C17_parsed_partial.
Definition keys_after (s : str) (os : list (cop item)) : option (list str) := option_map (fun c => c_dict (crun c os)) (doc_of s).
Example C17_ex : keys_after (L "a = 1" ++ lf ++ L "b = 2" ++ lf ++ L "[t]" ++ lf) [CAdd (L "c") (int_val 3); CDel (L "a"); CAdd (L "b") (int_val 4); CSet (L "a") (int_val 5)]
  = Some [L "b"; L "t"; L "c"; L "a"].
Proof. vm_compute. reflexivity. Qed.
Example C17_allowed_ex : exists d, parse (L "a = 1" ++ lf ++ L "[t]" ++ lf) = Ok d /\ allowed_all (view d) [CAdd (L "c") (int_val 3); CDel (L "a"); CDel (L "t"); CSet (L "t") (int_val 5)].
Proof. eexists. split; [vm_compute; reflexivity|]. vm_compute. repeat split; discriminate. Qed.
(** Assigning a plain value over a table moves the key to the end. *)
Theorem C17_overwrite_table_refuted :
  keys_after (L "[a]" ++ lf ++ L "[b]" ++ lf ++ L "[c]" ++ lf) [CSet (L "b") (int_val 2)] = Some [L "a"; L "c"; L "b"].
Proof. vm_compute. reflexivity. Qed.

(** C18.  [del doc[k]] for a plain entry of a parsed document: the text loses that
    entry's line and nothing else. *)
Theorem C18_delete : forall s d k i sk v, parse s = Ok d ->
  nth_error (c_body d) i = Some (Some sk, v) -> k_key sk = k -> plain v ->
  exists d' a b, remove d k = Ok d' /\ cont_string d = a ++ line (k_orig sk) sk v ++ b /\ cont_string d' = a ++ b.
Proof.
  intros s d k i sk v H Hn Hk P. pose proof (C17_parsed_consistent s d H) as Hc. pose proof Hc as (M & (F & _)). destruct (F _ _ _ Hn) as (ci & E & I1). rewrite Hk in E.
  assert (ci = One i). { destruct ci as [j|l]; [destruct I1 as [<-|[]]; reflexivity|]. destruct (M _ _ E) as (_ & _ & K). rewrite Forall_forall in K. destruct (K _ I1) as (s1 & w & N & _ & T). rewrite Hn in N. inversion N; subst. specialize (T eq_refl). destruct w; try (destruct P); discriminate. }
  subst ci. destruct (remove_ok d k (One i) Hc E) as (d' & R1 & _ & _ & _ & R2 & _). exists d', (btext None false (firstn i (c_body d))), (btext None false (skipn (S i) (c_body d))).
  split; [exact R1|]. rewrite !cont_string_eq, R2. cbn [idxs fold_left]. rewrite (set_split _ _ _ _ Hn). rewrite (split_at _ _ _ Hn) at 1. rewrite !btext_split, etext_null, etext_plain by exact P. split; reflexivity.
Qed.
Print Assumptions C18_delete.
(** The same for an entry of a table at any depth, as long as the table keeps its
    header ([same_head] in [nested]). *)
Theorem C18_delete_nested : forall c c' k sk v, nested (deleted k sk v) c c' ->
  exists a pfx b, cont_string c = a ++ line (prefixed pfx (k_orig sk)) sk v ++ b /\ cont_string c' = a ++ b.
Proof.
  intros c c' k sk v H. destruct (nested_string _ _ (deleted_local k sk v) c c' H) as (a & o & n & b & -> & -> & -> & pfx & ->). exists a, pfx, b. split; reflexivity.
Qed.
Print Assumptions C18_delete_nested.
(** A table that was written with a header line keeps it. *)
Theorem C18_header_kept : forall k sk v c c' tm, deleted k sk v c c' -> tm_super tm = Some false ->
  inb chLF (tr_trail (tm_trivia tm)) = true \/ 0 < List.length (c_dict c') -> same_head c c' tm.
Proof. exact deleted_head. Qed.
Print Assumptions C18_header_kept.
Example C18_ex : edit (L "a = 1" ++ lf ++ L "b = 2 # c" ++ lf ++ L "[t]" ++ lf) [CDel (L "b")] = Some (L "a = 1" ++ lf ++ L "[t]" ++ lf).
Proof. vm_compute. reflexivity. Qed.
(** Without it the header goes too: a table made by the API, left with sub-tables only. *)
Definition api_table (b : list (cop item)) : container := crun (empty_cont false) b.
Definition one_table (c : container) (su : option bool) : container :=
  match raw_append (empty_cont false) (Some (skey_of_str (L "t"))) (ITable c (mkTM (mkTrivia [] [] [] lf) false su (Some (L "t")) None)) with Ok x => x | Err _ => empty_cont false end.
Definition sub_table : item := ITable (api_table [CAdd (L "y") (int_val 2)]) (mkTM (mkTrivia [] [] [] lf) false (Some false) (Some (L "u")) None).
Definition with_sub (os : list (cop item)) : container :=
  crun (match cappend false (api_table [CAdd (L "x") (int_val 1)]) (Some (KSingle (skey_of_str (L "u")))) sub_table with Ok x => x | Err _ => empty_cont false end) os.
Theorem C18_header_lost_refuted :
  cont_string (one_table (with_sub []) None) = L "[t]" ++ lf ++ L "x = 1" ++ lf ++ lf ++ L "[t.u]" ++ lf ++ L "y = 2" ++ lf
  /\ cont_string (one_table (with_sub [CDel (L "x")]) None) = lf ++ L "[t.u]" ++ lf ++ L "y = 2" ++ lf.
Proof. split; vm_compute; reflexivity. Qed.

(** C19.  [doc[k] = v] for a plain entry of a parsed document: only the value
    changes.  [line (k_orig sk) sk v0] is the entry's line: indentation, key,
    separator, value, comment, line end. *)
Lemma one_index d i sk v : consistent d -> nth_error (c_body d) i = Some (Some sk, v) -> plain v -> map_get (k_key sk) (c_map d) = Some (One i).
Proof.
  intros (M & (F & _)) Hn P. destruct (F _ _ _ Hn) as (ci & E & I1). rewrite E. destruct ci as [j|l]; [destruct I1 as [<-|[]]; reflexivity|].
  destruct (M _ _ E) as (_ & _ & K). rewrite Forall_forall in K. destruct (K _ I1) as (s1 & w & N & _ & T). rewrite Hn in N. inversion N; subst. specialize (T eq_refl). destruct w; try (destruct P); discriminate.
Qed.
(** Only an array made multiline by [a.multiline(True)] is laid out by its indentation. *)
Definition fixed_text (v : item) : Prop := match v with IArray _ _ ml => ml = false | _ => True end.
Lemma copy_string v v0 : plain v -> fixed_text v -> item_string (copy_trivia v v0) = item_string v.
Proof. destruct v; intros H F; try (destruct H); try (cbn in F; subst); reflexivity. Qed.
Theorem C19_replace : forall s d k i sk v0 v, parse s = Ok d ->
  nth_error (c_body d) i = Some (Some sk, v0) -> k_key sk = k -> plain v0 -> plain v -> fixed_text v ->
  let t0 := item_trivia v0 in let t := item_trivia v in
  exists d' a b, set_item d k v = Ok d'
    /\ cont_string d = a ++ (tr_indent t0 ++ k_orig sk ++ k_sep sk ++ item_string v0 ++ tr_cws t0 ++ tr_comment t0 ++ tr_trail t0) ++ b
    /\ cont_string d' = a ++ (tr_indent t0 ++ k_orig sk ++ k_sep sk ++ item_string v ++ or_str (tr_cws t) (tr_cws t0) ++ or_str (tr_comment t) (tr_comment t0) ++ tr_trail t0) ++ b.
Proof.
  intros s d k i sk v0 v H Hn <- P0 P Fx t0 t. pose proof (C17_parsed_consistent s d H) as Hc. pose proof (one_index d i sk v0 Hc Hn P0) as Hm.
  assert (R : exists d', set_item d (k_key sk) v = Ok d').
  { unfold set_item. destruct (app_fuel_pos d (Some (KSingle (skey_of_str (k_key sk)))) v) as [n ->]. cbn [contains]. rewrite Hm. cbn [rbind]. rewrite <- Hm, (replace_plain _ _ _ _ _ _ _ Hc Hm Hn P0 P). eauto. }
  destruct R as [d' R]. assert (RR : replaced (k_key sk) sk v0 v d d') by (split; [exact Hc|split; [reflexivity|split; [exact P0|split; [exact P|split; [exists i; auto|exact R]]]]]).
  destruct (replaced_eq _ _ _ _ _ _ RR) as (j & Hj & _ & ->). rewrite Hm in Hj. inversion Hj; subst j. eexists _, (btext None false (firstn i (c_body d))), (btext None false (skipn (S i) (c_body d))).
  split; [exact R|]. rewrite !cont_string_eq, put_body, (set_split _ _ _ _ Hn). rewrite (split_at _ _ _ Hn) at 1. rewrite !btext_split, !etext_plain by auto using plain_copy.
  unfold line. destruct (copy_fields v v0 P) as (-> & -> & -> & ->). rewrite (copy_string v v0 P Fx). split; reflexivity.
Qed.
Print Assumptions C19_replace.
(** The same anywhere in the tree, also below dotted keys and in arrays of tables,
    for a value that brings no comment of its own: [o] becomes [n], the rest stays. *)
Theorem C19_replace_nested : forall c c' k sk v0 v, inside (replaced k sk v0 v) c c' -> fixed_text v ->
  tr_cws (item_trivia v) = [] -> tr_comment (item_trivia v) = [] ->
  exists a b, let t0 := item_trivia v0 in
    cont_string c = a ++ (k_orig sk ++ k_sep sk) ++ item_string v0 ++ (tr_cws t0 ++ tr_comment t0 ++ tr_trail t0) ++ b
    /\ cont_string c' = a ++ (k_orig sk ++ k_sep sk) ++ item_string v ++ (tr_cws t0 ++ tr_comment t0 ++ tr_trail t0) ++ b.
Proof.
  intros c c' k sk v0 v H Fx H1 H2. assert (P : plain v). { clear H1 H2 Fx. induction H as [c c' (_ & _ & _ & P & _)| |]; assumption. }
  apply inside_nested in H as [H _]; [|intros; eapply replaced_head; eassumption]. destruct (nested_string _ _ (replaced_local k sk v0 v) c c' H) as (a & o & n & b & -> & -> & E1 & E2).
  exists a, b. cbv zeta in *. rewrite E1, E2, H1, H2, (copy_string v v0 P Fx). cbn [or_str]. rewrite <- !app_assoc. split; reflexivity.
Qed.
Print Assumptions C19_replace_nested.
Example C19_ex : edit (L "a = 1" ++ lf ++ L "  'b' =  2 # c" ++ lf ++ L "[t]" ++ lf) [CSet (L "b") (int_val 77)] = Some (L "a = 1" ++ lf ++ L "  'b' =  77 # c" ++ lf ++ L "[t]" ++ lf).
Proof. vm_compute. reflexivity. Qed.

(** C20.  A new plain key in a document or table: the line is placed behind the
    entries [b1] that stand above the first table header, before the rest [b2],
    which is blank or begins (after blank lines) with a table header.  All existing
    entries keep their text; a line end is added to the last one if it has none. *)
Theorem C20_place_partial : forall c k v c', consistent c -> c_parsed c = false -> Forall entry_regular (c_body c) -> plain v -> map_get k (c_map c) = None ->
  cstep c (CAdd k v) = Ok c' ->
  exists b1 b2, c_body c = b1 ++ b2 /\ Forall above b1 /\ tables_part b2
    /\ cont_string c = btext None false b1 ++ btext None false b2
    /\ cont_string c' = btext None false b1 ++ added_nl b1 ++ line (k_orig (skey_of_str k)) (skey_of_str k) v ++ btext None false b2.
Proof.
  intros c k v c' Hc Hp Hr P Hm H. destruct (added_text c k v c' Hc Hp P Hr Hm H) as (b1 & b2 & A & B & C & D). exists b1, b2. split; [exact A|]. split; [exact B|]. split; [exact C|].
  rewrite !cont_string_eq. split; [rewrite A, btext_app; reflexivity|]. rewrite (D None false). reflexivity.
Qed.
Print Assumptions C20_place_partial.
Example C20_ex : edit (L "a = 1" ++ lf ++ lf ++ L "[t]" ++ lf ++ L "x = 1" ++ lf) [CAdd (L "b") (int_val 2)] = Some (L "a = 1" ++ lf ++ L "b = 2" ++ lf ++ lf ++ L "[t]" ++ lf ++ L "x = 1" ++ lf).
Proof. vm_compute. reflexivity. Qed.
(** A new key behind a dotted key on the last line, without a line end. *)
Theorem C20_glued_refuted : edit (L "a.b = 1") [CAdd (L "c") (int_val 2)] = Some (L "a.b = 1c = 2" ++ lf).
Proof. vm_compute. reflexivity. Qed.
(** A plain value assigned over a table lands inside the table before it. *)
Theorem C20_overwrite_refuted : edit (L "[a]" ++ lf ++ L "x = 1" ++ lf ++ L "[b]" ++ lf ++ L "[c]" ++ lf) [CSet (L "b") (int_val 2)]
  = Some (L "[a]" ++ lf ++ L "x = 1" ++ lf ++ L "b = 2" ++ lf ++ L "[c]" ++ lf).
Proof. vm_compute. reflexivity. Qed.

(** C21.  A key bound to a plain value cannot be added again, in a parsed document
    after any history; and no two plain entries ever have the same key. *)
Theorem C21_refused : forall s d os i sk w k v, parse s = Ok d -> allowed_all (view d) os ->
  let c := crun d os in
  nth_error (c_body c) i = Some (Some sk, w) -> plain w -> k_key sk = k -> plain v -> cstep c (CAdd k v) = Err (KeyAlreadyPresentE k).
Proof.
  intros s d os i sk w k v H Ha c Hn P <- Pv. pose proof (proj2 (C17_parsed_partial s d os H Ha)) as Hc. fold c in Hc.
  pose proof (one_index c i sk w Hc Hn P) as Hm. cbn [cstep]. unfold cappend. destruct (app_fuel_pos c (Some (KSingle (skey_of_str (k_key sk)))) v) as [n ->]. exact (append_dup _ Own false c (skey_of_str (k_key sk)) v true i Hc Pv Hm).
Qed.
Print Assumptions C21_refused.
Theorem C21_unique : forall s d os i j sk sk' v v', parse s = Ok d -> allowed_all (view d) os -> let c := crun d os in
  nth_error (c_body c) i = Some (Some sk, v) -> nth_error (c_body c) j = Some (Some sk', v') -> i <> j -> k_key sk = k_key sk' ->
  is_table v = true /\ is_table v' = true.
Proof. intros s d os i j sk sk' v v' H Ha c Hi Hj Hn Hk. eapply no_duplicates; [apply (proj2 (C17_parsed_partial s d os H Ha))|exact Hn|exact Hi|exact Hj|exact Hk]. Qed.
Print Assumptions C21_unique.
(** Every table at every depth of a parsed document is without duplicates. *)
Theorem C21_unique_nested : forall s d, parse s = Ok d -> ok_cont d /\
  (forall c, ok_cont c -> (forall i j sk sk' v v', nth_error (c_body c) i = Some (Some sk, v) -> nth_error (c_body c) j = Some (Some sk', v') -> i <> j -> k_key sk = k_key sk' -> is_table v = true /\ is_table v' = true)
     /\ Forall (fun kv => ok_item (snd kv)) (c_body c)).
Proof.
  intros s d H. split; [apply parsed_ok with s, H|]. intros c Hc. destruct Hc as [c Hc _ Hb]. split; [|exact Hb]. intros i j sk sk' v v' Hi Hj Hn Hk. eapply no_duplicates; eauto.
Qed.
Print Assumptions C21_unique_nested.
Example C21_ex : match doc_of (L "a = 1" ++ lf) with Some c => cstep c (CAdd (L "a") (int_val 2)) | None => Err FuelE end = Err (KeyAlreadyPresentE (L "a")).
Proof. vm_compute. reflexivity. Qed.
Example C21_parse_ex : (exists e, parse (L "a = 1" ++ lf ++ L "b.c = 1" ++ lf ++ L "a = 2" ++ lf) = Err e) /\ (exists e, parse (L "a.b = 1" ++ lf ++ L "a.b = 2" ++ lf) = Err e).
Proof. split; eexists; vm_compute; reflexivity. Qed.
