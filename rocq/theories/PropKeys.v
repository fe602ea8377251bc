(** Property C54: keys made from names: compared, joined, and put in documents. *)
From Verif Require Import Base Source Utils Items Container Arrays Parser Api Lemmas Strings Keys ContOps Text Render TextValue TextParse PyVal PyItem ItemConv Unwrap DumpText DumpValue DumpRender PropItem Grammar Denote Lines CompKey CompValue Written PropWritten Document DocRun MadeSnug Edit Raw RawSpec RawFacts Keying.
Open Scope nat_scope.

(** * Keys that mean what they say: their text is a TOML key of the names they have, and so is that of each part. *)
Definition spells (K : key) (names : list str) : Prop :=
  key_names K = names /\ key_means (key_string K) names /\ Forall (fun p => name_means (k_orig p) (k_key p)) (key_parts K).
Lemma parts_mean l : l <> [] -> Forall (fun p => name_means (k_orig p) (k_key p)) l -> key_means (origs l) (map k_key l).
Proof.
  intros N F. induction F as [|p l H F IH]; [congruence|]. destruct l as [|q l]; [constructor; exact H|]. rewrite origs_cons by discriminate. cbn [map]. constructor; [exact H|apply IH; discriminate].
Qed.
Lemma made_parts ks : Forall (fun p => name_means (k_orig p) (k_key p)) (map skey_of_str ks) /\ map k_key (map skey_of_str ks) = ks.
Proof.
  split; [induction ks; constructor; [apply skey_name|assumption]|]. rewrite map_map. induction ks as [|k ks IH]; [reflexivity|]. cbn [map]. rewrite IH. reflexivity.
Qed.
Definition names_of (k : str + list str) : list str := match k with inl k => [k] | inr ks => ks end.

(** C54, keys from names: whatever the names (any strings; for a list, at least one), [key(k)] has exactly these names, and its text is a TOML key for them. *)
Theorem C54_made : forall k, names_of k <> [] -> spells (made_key k) (names_of k).
Proof.
  intros [k|ks] N; cbn [names_of made_key] in *.
  - split; [reflexivity|]. split; [constructor; apply skey_name|repeat constructor; apply skey_name].
  - destruct (made_parts ks) as [F E]. split; [exact E|]. split; [|exact F]. pose proof (parts_mean (map skey_of_str ks)) as P. rewrite E in P. apply P; [destruct ks; [congruence|discriminate]|exact F].
Qed.
Print Assumptions C54_made.
(** ... and so does the key that [key_value] reads from the text of a pair, blanks around the names included. *)
Theorem C54_read : forall a k names s w v, Grammar.blanks a -> key_means k names -> sep_text s -> denotes w v -> exists K it, key_value (a ++ k ++ s ++ w) = Ok (K, it) /\ spells K names.
Proof.
  intros a k names s w v Ha Hk Hs Hd.
  assert (Ht : line_tail [] []) by (exists [], [], []; split; [reflexivity|]; split; [constructor|]; split; [left; reflexivity|]; right; right; auto).
  destruct (key_value_parts false [] a k names s w v [] (CompValue.calm_false _) Ha Hk Hs Hd Ht) as (K & sep & it & e & r & E & Et & He & En & Es & Ef & Fp & Vi & U & w' & Dw & _ & Tx & _).
  rewrite !app_nil_r in E. exists (key_set_sep sep K), it. split; [exact E|]. assert (Fn : Forall (fun p => name_means (k_orig p) (k_key p)) (key_parts K)) by (eapply Forall_impl; [|exact Fp]; intros p (_ & _ & X); exact X).
  destruct Ef as (Eo & _ & Ne & _). pose proof (parts_mean _ Ne Fn) as P. fold (key_names K) in P. rewrite En, <- Eo in P. destruct K as [sk|ks s0 o]; [|split; [exact En|split; [exact P|exact Fn]]].
  apply Forall_inv in Fn. split; [exact En|]. split; [exact P|]. repeat constructor; exact Fn.
Qed.
Print Assumptions C54_read.

(** C54, joining: [a.concat(b)], where [a] and [b] spell their names (made keys and keys read do), has the names of [a] and then those of [b], and its text is a TOML key for them;
    it can be joined again, in any grouping.  It is written with the separator of [a].  For made keys it is [key] of all the names. *)
Theorem C54_joined : forall A B ns ms, spells A ns -> spells B ms ->
  spells (key_concat A B) (ns ++ ms) /\ key_sep (key_concat A B) = key_sep A /\ (forall C, key_concat (key_concat A B) C = key_concat A (key_concat B C)).
Proof.
  intros A B ns ms (Na & Ka & Fa) (Nb & Kb & Fb). assert (Nea : key_parts A <> []) by (unfold key_names in Na; destruct (key_parts A); [cbn in Na; subst ns; inversion Ka|discriminate]).
  split; [|split; [reflexivity|]].
  - unfold spells, key_names in *. cbn [key_concat dotted_of key_parts key_string]. split; [rewrite map_app, Na, Nb; reflexivity|]. assert (F : Forall (fun p => name_means (k_orig p) (k_key p)) (key_parts A ++ key_parts B)) by (apply Forall_app; auto).
    split; [|exact F]. pose proof (parts_mean (key_parts A ++ key_parts B)) as P. rewrite map_app, Na, Nb in P. apply P; [|exact F]. destruct (key_parts A); [congruence|discriminate].
  - intros C. unfold key_concat, dotted_of. cbn [key_parts key_sep]. rewrite app_assoc. reflexivity.
Qed.
Print Assumptions C54_joined.
Theorem C54_joined_made : forall a b, key_concat (made_key a) (made_key b) = api_dotted_key (names_of a ++ names_of b).
Proof. intros [a|a] [b|b]; unfold key_concat, api_dotted_key, dotted_of; cbn [made_key names_of api_key api_dotted_key dotted_of key_parts key_sep]; unfold api_dotted_key, dotted_of; cbn [key_parts key_sep]; rewrite ?map_app; reflexivity. Qed.
Print Assumptions C54_joined_made.

(** C54, comparing: two keys are equal just when both are single, or both dotted, with the same names, however they are written; a key is equal to a string just when it is single and that is its name.
    What is equal has the same hash, so a key and its name find the same entry of a dict ([h], [ht]: any hash functions for strings and tuples). *)
Definition single (K : key) : Prop := match K with KSingle _ => True | KDotted _ _ _ => False end.
Lemma skeys_same a b : skeys_eqb a b = true <-> map k_key a = map k_key b.
Proof.
  revert b. induction a as [|x a IH]; intros [|y b]; cbn [skeys_eqb map]; try (split; [discriminate|discriminate]); [split; reflexivity|]. rewrite andb_true_iff, IH, str_eqb_eq. split; [intros [-> ->]; reflexivity|intros [= -> ->]; auto].
Qed.
Theorem C54_compared : forall A B,
  (key_eqb A B = true <-> (single A <-> single B) /\ key_names A = key_names B) /\
  (forall s, key_is_str A s = true <-> single A /\ key_names A = [s]) /\
  (forall h ht, key_eqb A B = true -> key_hash h ht A = key_hash h ht B) /\ (forall h ht s, key_is_str A s = true -> key_hash h ht A = h s).
Proof.
  intros A B. unfold key_names. split; [|split; [|split]].
  - destruct A as [x|x p q], B as [y|y r t]; cbn [key_eqb single key_parts map]; [rewrite str_eqb_eq|..].
    + split; [intros ->; tauto|intros [_ [= ->]]; reflexivity].
    + split; [discriminate|intros [[H _] _]; destruct (H I)].
    + split; [discriminate|intros [[_ H] _]; destruct (H I)].
    + rewrite skeys_same. tauto.
  - intros s. destruct A as [x|x p q]; cbn [key_is_str single key_parts map]; [rewrite str_eqb_eq; split; [intros ->; auto|intros [_ [= ->]]; reflexivity]|split; [discriminate|intros [[] _]]].
  - intros h ht. destruct A as [x|x p q], B as [y|y r t]; cbn [key_eqb key_hash]; try discriminate; [rewrite str_eqb_eq; intros ->; reflexivity|]. rewrite skeys_same. intros E. f_equal. rewrite <- (map_map k_key h x), E, map_map. reflexivity.
  - intros h ht s. destruct A as [x|x p q]; cbn [key_is_str key_hash]; [rewrite str_eqb_eq; intros ->; reflexivity|discriminate].
Qed.
Print Assumptions C54_compared.

(** C54, documents: the key made from a string, or from two or more strings, appended with a Python value that is written as a value, to a new document: the document is written as the key's text, " = ", the value's text
    and a line break; this is a TOML document for the dict with these names nested; it is what is in memory (equal in Python), and reading it gives it back.
    Missing: keys made from a list of one string, which no lookup by string finds ([C54_compared]); documents with other entries. *)
Definition usable (k : str + list str) : Prop := match k with inl _ => True | inr ks => 2 <= List.length ks end.
Lemma made_value v : tablish v = false -> forall i, py_item PkNone v = Ok i -> value_item i.
Proof.
  intros T i E. destruct v as [s|z|b|f|d|t|d|l|l]; try discriminate T; try (injection E as <-; exact I).
  cbn [py_item] in E. assert (W : wants_aot PkNone l = false) by (cbn [tablish] in T; unfold wants_aot; destruct l; [reflexivity|rewrite T; reflexivity]). rewrite W in E.
    match type of E with rbind ?r _ = _ => destruct r; [|discriminate] end. cbn [rbind] in E. match type of E with rbind ?r _ = _ => destruct r; [|discriminate] end. injection E as <-. reflexivity.
Qed.
Theorem C54_document_partial : forall k v, names_of k <> [] -> usable k -> py_fine v -> tablish v = false ->
  exists it d v' u, py_item PkNone v = Ok it /\ new_document (made_key k) it = Ok d /\
    cont_string d = key_string (made_key k) ++ L " = " ++ item_string it ++ [10]%N /\ document_means (cont_string d) (nest (names_of k) v') /\ pyeq v v' /\
    unwrap_cont d = Some (nest (names_of k) u) /\ pyeq v u /\
    exists d2, parse (cont_string d) = Ok d2 /\ unwrap_cont d2 = Some (nest (names_of k) v').
Proof.
  intros k v N Us Fv T. destruct (C28_item_unwrap v (fine_ok v Fv)) as (it & u & E & U & Q). pose proof (made_value v T it E) as Vi.
  destruct (proj1 (proj1 (all_made v (fine_ok v Fv))) PkNone (or_intror T)) as (it1 & E1 & [_ Tr] & Tx). rewrite E in E1. injection E1 as <-. destruct (value_written v Fv false) as (v' & D & Q'). rewrite <- Tx in D.
  destruct (C54_made k N) as (Kn & Km & _).
  assert (X : exists d, new_document (made_key k) it = Ok d /\ cont_string d = kv_text (key_string (made_key k)) (L " = ") it /\ unwrap_cont d = Some (nest (names_of k) u)).
  { assert (Es : key_set_sep (L " = ") (made_key k) = made_key k) by (destruct k; reflexivity). pose proof (new_text (made_key k) (L " = ") it (names_of k) u Kn) as X. rewrite Es in X. apply X; auto; [|destruct k; reflexivity]. destruct k as [k|ks]; [exact I|]. cbn [made_key api_dotted_key dotted_of key_shape usable] in *. rewrite map_length. exact Us. }
  destruct X as (d & Ed & Td & Ud). exists it, d, v', u. split; [exact E|]. split; [exact Ed|].
  assert (Td2 : cont_string d = key_string (made_key k) ++ L " = " ++ item_string it ++ [10]%N) by (rewrite Td; unfold kv_text, tail_text; rewrite Tr; reflexivity). split; [exact Td2|].
  assert (Dm : document_means (cont_string d) (nest (names_of k) v')).
  { rewrite Td2. apply (pair_document_tail [] (key_string (made_key k)) (names_of k) (L " = ") (item_string it) v' [10%N]); [constructor|exact Km|apply sep_space|exact D|]. exists [], [], [10%N]. split; [reflexivity|]. split; [constructor|]. split; [left; reflexivity|]. left. reflexivity. }
  split; [exact Dm|]. split; [exact Q'|]. split; [exact Ud|]. split; [exact Q|]. apply document_parsed, Dm.
Qed.
Print Assumptions C54_document_partial.

(** C54, inline tables: a pair "key = value" (no blanks around the key and none after the value) that [key_value] reads, or the key made from a string with an item made from a value, appended to an empty inline table
    ([new]: as [tomlkit.inline_table] makes them, or as read): it is written as the pair in braces, which is a TOML value: the dict with these names nested; so it is in memory.
    A comment the item was given with [comment] ([noted]) is not written: it would end the inline table.
    Missing: inline tables with other entries; for a dotted key made from names it is false ([C54_refuted]). *)
Definition no_lead (k : str) : Prop := match k with c :: _ => c <> 32%N /\ c <> 9%N | [] => True end.
Lemma one_inline c new p K it0 : c_body c = [(Some K, it0)] -> p = ient K it0 -> item_string (IInline c default_trivia new) = [123%N] ++ p ++ [125%N].
Proof. destruct c as [body m pz tks d]. cbn [c_body]. intros -> ->. rewrite inline_string. reflexivity. Qed.
Lemma one_field k names s w v : key_means k names -> sep_text s -> denotes w v -> denotes ([123%N] ++ (k ++ s ++ w) ++ [125%N]) (PDict (nest names v)).
Proof.
  intros Hk Hs Hd. assert (Ne : names <> []) by (inversion Hk; discriminate). destruct (put_nest v names Ne) as (l & P & E). rewrite <- E. constructor.
  replace (k ++ s ++ w) with ([] ++ k ++ s ++ w ++ []) by (rewrite app_nil_r; reflexivity). eapply fd_last; eauto; constructor.
Qed.
Lemma inline_same K it new : tr_comment (item_trivia it) = [] -> value_item it -> inline_append (empty_cont false) new K it = new_document K it.
Proof.
  intros C V. unfold inline_append, new_document, cappend. assert (E : forall t, t = item_trivia it -> set_trivia t it = it) by (intros t ->; destruct it; try contradiction; reflexivity).
  change (Nat.ltb 0 (List.length (c_dict (empty_cont false)))) with false. rewrite andb_false_r, E; [reflexivity|]. rewrite <- C. destruct (item_trivia it). reflexivity.
Qed.
Theorem C54_inline_partial : forall k names s w v new, no_lead k -> key_means k names -> sep_text s -> denotes w v ->
  exists K it c w', key_value (k ++ s ++ w) = Ok (K, it) /\ inline_append (empty_cont false) new K it = Ok c /\ denotes w' v /\
    item_string (IInline c default_trivia new) = L "{" ++ k ++ s ++ w' ++ L "}" /\
    denotes (item_string (IInline c default_trivia new)) (PDict (nest names v)) /\ unwrap (IInline c default_trivia new) = Some (PDict (nest names v)).
Proof.
  intros k names s w v new Nl Hk Hs Hd. assert (Ht : line_tail [] []) by (exists [], [], []; split; [reflexivity|]; split; [constructor|]; split; [left; reflexivity|]; right; right; auto).
  destruct (key_value_parts false [] [] k names s w v [] (CompValue.calm_false _) (Forall_nil _) Hk Hs Hd Ht) as (K & sep & it & e & r & E & Et & He & En & Es & Ef & Fp & Vi & U & w' & Dw & _ & Tx & a2 & k2 & Ek & Ha2 & Tr).
  symmetry in Et. apply app_eq_nil in Et as [-> ->]. cbn [app] in *. rewrite !app_nil_r in *.
  assert (a2 = []) as ->. { destruct a2 as [|c a2]; [reflexivity|]. exfalso. subst k. destruct Nl as [N1 N2]. apply Forall_inv in Ha2. destruct Ha2; congruence. }
  assert (Tt : tail_text it = []) by (unfold tail_text; rewrite Tr; reflexivity). destruct (norm_ient K it sep Vi Ef) as (k' & F & I); [rewrite Tr; reflexivity|exact Tt|].
  destruct (new_body K sep it names v En Es (proj1 Ef) Vi U) as (c & A & B & _ & Uc). rewrite (surjective_pairing (norm_entry _ _)), F in B.
  assert (Tx2 : key_string K ++ sep ++ item_string it = k ++ s ++ w') by (unfold kv_text in Tx; rewrite Tt, Tr in Tx; cbn [tr_indent app] in Tx; rewrite !app_nil_r in Tx; exact Tx).
  exists (key_set_sep sep K), it, c, w'. split; [exact E|]. split; [rewrite inline_same; [exact A|rewrite Tr; reflexivity|exact Vi]|]. split; [exact Dw|].
  rewrite (one_inline c new _ _ _ B eq_refl), I, Tx2. split; [rewrite <- !app_assoc; reflexivity|]. split; [apply one_field; assumption|]. rewrite unwrap_inline, Uc. reflexivity.
Qed.
Print Assumptions C54_inline_partial.
Definition noted (o : option str) (it : item) : item := match o with None => it | Some cm => set_trivia (note_trivia cm (item_trivia it)) it end.
Theorem C54_inline_made_partial : forall k v o new, py_fine v -> tablish v = false ->
  exists it c v' u, py_item PkNone v = Ok it /\ inline_append (empty_cont false) new (made_key (inl k)) (noted o it) = Ok c /\
    item_string (IInline c default_trivia new) = L "{" ++ key_string (made_key (inl k)) ++ L " = " ++ item_string it ++ L "}" /\
    denotes (item_string (IInline c default_trivia new)) (PDict [(k, v')]) /\ pyeq v v' /\ unwrap (IInline c default_trivia new) = Some (PDict [(k, u)]) /\ pyeq v u.
Proof.
  intros k v o new Fv T. destruct (C28_item_unwrap v (fine_ok v Fv)) as (it & u & E & U & Q). pose proof (made_value v T it E) as Vi.
  destruct (proj1 (proj1 (all_made v (fine_ok v Fv))) PkNone (or_intror T)) as (it1 & E1 & [_ Tr] & Tx). rewrite E in E1. injection E1 as <-. destruct (value_written v Fv false) as (v' & D & Q'). rewrite <- Tx in D.
  destruct (C54_made (inl k)) as (Kn & Km & _); [discriminate|].
  assert (W : exists it2, (forall n, inline_append (empty_cont false) n (made_key (inl k)) (noted o it) = new_document (made_key (inl k)) it2) /\ value_item it2 /\ unwrap it2 = Some u /\ item_string it2 = item_string it /\
    tr_indent (item_trivia it2) = [] /\ tr_comment (item_trivia it2) = [] /\ tr_trail (item_trivia it2) = [10%N]).
  { destruct o as [cm|]; cbn [noted].
    - set (t2 := mkTrivia [] (L " ") [] [10%N]). destruct (set_trivia_get t2 it Vi) as (T1 & T2 & T3). exists (set_trivia t2 it). split.
      + intros n. unfold inline_append, new_document, cappend. change (Nat.ltb 0 (List.length (c_dict (empty_cont false)))) with false. rewrite andb_false_r. cbn [negb andb].
        destruct (set_trivia_get (note_trivia cm (item_trivia it)) it Vi) as (N1 & _). rewrite N1, Tr. assert (E3 : forall t, set_trivia t (set_trivia (note_trivia cm default_trivia) it) = set_trivia t it) by (intros t; destruct it; try contradiction; reflexivity).
        rewrite E3. reflexivity.
      + split; [exact T3|]. split; [rewrite unwrap_trivia; exact U|]. split; [exact T2|]. rewrite T1. auto.
    - exists it. split; [intros n; apply inline_same; [rewrite Tr; reflexivity|exact Vi]|]. rewrite Tr. repeat split; auto. }
  destruct W as (it2 & W & V2 & U2 & S2 & I2 & C2 & L2).
  destruct (new_body (made_key (inl k)) (L " = ") it2 [k] u Kn I eq_refl V2 U2) as (c & A & B & _ & Uc).
  exists it, c, v', u. split; [exact E|]. split; [rewrite W; exact A|].
  assert (X : item_string (IInline c default_trivia new) = [123%N] ++ (key_string (made_key (inl k)) ++ L " = " ++ item_string it) ++ [125%N]).
  { erewrite one_inline; [reflexivity|exact B|]. assert (Sn : set_name (k_key (set_sep (L " = ") (skey_of_str k))) it2 = it2) by (destruct it2; try contradiction; reflexivity). cbn [made_key api_key key_set_sep] in *. cbn [norm_entry kstr fst snd] in *. unfold ient. rewrite Sn, S2, I2, C2, L2. change (replace [chLF] [] [10%N]) with (@nil N). rewrite !app_nil_r. reflexivity. }
  split; [rewrite X, <- !app_assoc; reflexivity|]. split; [rewrite X; apply (one_field _ [k] (L " = ") _ v'); [exact Km|apply sep_space|exact D]|]. split; [exact Q'|]. split; [rewrite unwrap_inline, Uc; reflexivity|exact Q].
Qed.
Print Assumptions C54_inline_made_partial.

(** Cases. *)
Definition read_key (src : str) : key := match key_value src with Ok (K, _) => K | Err _ => api_key [] end.
Example C54_inline_example : no_lead (L "a . 'b'") /\ (exists it c, key_value (L "a . 'b' = 1") = Ok (read_key (L "a . 'b' = 1"), it) /\ inline_append (empty_cont false) true (read_key (L "a . 'b' = 1")) it = Ok c /\
    item_string (IInline c default_trivia true) = L "{a . 'b' = 1}").
Proof. split; [split; discriminate|]. eexists _, _. split; [vm_compute; reflexivity|]. split; [vm_compute; reflexivity|vm_compute; reflexivity]. Qed.
Example C54_inline_made_example : exists it c, py_item PkNone (PStr (L "v")) = Ok it /\ tr_comment (item_trivia (noted (Some (L "why")) it)) = L "# why" /\ inline_append (empty_cont false) true (made_key (inl (L "a b"))) (noted (Some (L "why")) it) = Ok c /\
    item_string (IInline c default_trivia true) = L "{""a b"" = ""v""}".
Proof. eexists _, _. split; [vm_compute; reflexivity|]. split; [vm_compute; reflexivity|]. split; [vm_compute; reflexivity|vm_compute; reflexivity]. Qed.
Example C54_example : exists it d, py_item PkNone (PStr (L "v")) = Ok it /\ new_document (made_key (inr [L "a"; L "b c"; []])) it = Ok d /\
  cont_string d = L "a.""b c"".""""" ++ L " = ""v""" ++ [10]%N /\
  key_string (key_concat (made_key (inl (L "x.y"))) (made_key (inr [L "a"; L "b"]))) = L """x.y"".a.b" /\
  key_eqb (made_key (inr [L "a"; L "b"])) (made_key (inl (L "a.b"))) = false /\ key_is_str (made_key (inl (L "a.b"))) (L "a.b") = true.
Proof. eexists _, _. split; [vm_compute; reflexivity|]. split; [vm_compute; reflexivity|]. split; [vm_compute; reflexivity|]. split; [vm_compute; reflexivity|]. split; [vm_compute; reflexivity|vm_compute; reflexivity]. Qed.
Example C54_read_example : key_string (key_concat (read_key (L "a . 'b' = 1")) (made_key (inl (L "c")))) = L "a . 'b' .c" /\ key_names (key_concat (read_key (L "a . 'b' = 1")) (made_key (inl (L "c")))) = [L "a"; L "b"; L "c"].
Proof. split; [vm_compute; reflexivity|vm_compute; reflexivity]. Qed.

(** Where the claim is false.  A dotted key made from names and appended to an inline table: what is written is not TOML.  A key from a list of one string is written as, and has the names of, the key from that
    string, but is neither equal to it nor to the string. *)
Theorem C54_refuted :
  (exists it c, py_item PkInline (PInt 1) = Ok it /\ inline_append (empty_cont false) true (made_key (inr [L "a"; L "b"])) it = Ok c /\
     item_string (IInline c default_trivia true) = L "{a. = b = 1" ++ [10]%N ++ L "}" /\ forall x, value_of (item_string (IInline c default_trivia true)) <> Ok x) /\
  (let A := made_key (inr [L "a"]) in let B := made_key (inl (L "a")) in key_string A = key_string B /\ key_names A = key_names B /\ key_eqb A B = false /\ key_is_str A (L "a") = false).
Proof.
  split.
  - eexists _, _. split; [vm_compute; reflexivity|]. split; [vm_compute; reflexivity|]. split; [vm_compute; reflexivity|]. intros x. vm_compute. discriminate.
  - split; [vm_compute; reflexivity|]. split; [vm_compute; reflexivity|]. split; [vm_compute; reflexivity|vm_compute; reflexivity].
Qed.
Print Assumptions C54_refuted.
