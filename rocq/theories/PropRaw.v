(** Property C53: values, keys and pairs made from raw text. *)
From Verif Require Import Base Source Utils Items Container Arrays Parser Api Lemmas PyVal PyItem ItemConv Unwrap Grammar Meaning Denote Lines Document CompKey CompValue Neat DocLine Ordinary Text Render TextValue GramSound Raw RawSpec RawFacts.
Open Scope nat_scope.

(** C53, pairs: [tomlkit.key_value] of the line "key = value" of the TOML grammar gives the names of the key and an item with the value the text stands for,
    whatever comes behind: blanks, a comment and line break [t], any further text [z].
    Appended to a new document, the two give a document for exactly this one pair: it reads as the (nested) dict, and what is written is the key with everything
    around it as in the source, an equal sign, a text [w'] for the value, and is a TOML document for the same dict.  [w'] is [w] itself when the
    source has no date followed by a space and no blank before a comma. *)
Theorem C53_key_value : forall z a k names s w v t, Grammar.blanks a -> key_means k names -> sep_text s -> denotes w v -> line_tail z t ->
  exists K it d, key_value (a ++ k ++ s ++ w ++ t ++ z) = Ok (K, it) /\ key_names K = names /\ unwrap it = Some v /\
    new_document K it = Ok d /\ unwrap_cont d = Some (nest names v) /\ document_means (cont_string d) (nest names v) /\
    (exists w' e, cont_string d = a ++ k ++ s ++ w' ++ e /\ denotes w' v /\ Forall (fun c => c = 32%N) e /\ exists r, t = e ++ r) /\
    (no_date_space (w ++ t ++ z) -> no_blank_comma (w ++ t ++ z) -> cont_string d = a ++ k ++ s ++ w).
Proof.
  intros z a k names s w v t Ha Hk Hs Hd Ht. destruct (key_value_parts false z a k names s w v t (CompValue.calm_false _) Ha Hk Hs Hd Ht) as (K & sep & it & e & r & E & Et & He & En & Es & Ef & _ & Vi & U & w' & Dw & _ & Tx & _).
  destruct (new_text K sep it names v En Es (proj1 Ef) Vi U) as (d & Ed & Td & Ud). rewrite Tx in Td.
  exists (key_set_sep sep K), it, d. split; [exact E|]. split; [rewrite (proj1 (key_names_sep sep K)); exact En|]. split; [exact U|]. split; [exact Ed|]. split; [exact Ud|].
  split; [rewrite Td; apply pair_document; assumption|]. split; [exists w', e; eauto|]. intros Q1 Q2.
  destruct (key_value_parts true z a k names s w v t (fun _ => conj Q1 Q2) Ha Hk Hs Hd Ht) as (K2 & sep2 & it2 & e2 & r2 & E2 & _ & _ & En2 & Es2 & Ef2 & _ & Vi2 & U2 & w2 & _ & Q & Tx2 & _).
  destruct (new_text K2 sep2 it2 names v En2 Es2 (proj1 Ef2) Vi2 U2) as (d2 & Ed2 & Td2 & _). rewrite E in E2. injection E2 as EK <-. rewrite <- EK, Ed in Ed2. injection Ed2 as <-. destruct (Q eq_refl) as [-> ->]. rewrite Td2, Tx2, app_nil_r. reflexivity.
Qed.
Print Assumptions C53_key_value.

(** C53, conversely: whatever [key_value] accepts starts with "key = value" as the grammar has it (false for what follows, see C53_rest_refuted). *)
Theorem C53_accepts_partial : forall src K it, key_value src = Ok (K, it) ->
  exists a k s w r, src = a ++ k ++ s ++ w ++ r /\ Grammar.blanks a /\ key_text k /\ sep_text s /\ value_text true w.
Proof.
  intros src K it H. unfold key_value in H. destruct (parse_key_value false (parse_fuel src) false (start src)) as [r st] eqn:E. cbn [fst] in H. subst r.
  apply kv_gram in E as (a & k & q & v & s1 & A & B & C & D & M & ->); [|intros st0 v0 st1 H0; apply (value_gram false _ _ _ _ H0)]. exists a, k, q, v, (p_rest s1). repeat split; auto.
  destruct M as [M _]. cbn [start p_rest] in M. rewrite <- !app_assoc in M. exact M.
Qed.
Print Assumptions C53_accepts_partial.

(** C53, the rest: [array] of nothing is empty and [array] of an array text has the items the text stands for; [boolean] of a TOML boolean is that boolean. *)
Theorem C53_array : (exists it, array None = Ok it /\ unwrap it = Some (PList [])) /\ forall w l, denotes w (PList l) -> exists it, array (Some w) = Ok it /\ unwrap it = Some (PList l).
Proof. split; [eexists; split; [vm_compute; reflexivity|vm_compute; reflexivity]|]. intros w l. apply denotes_value. Qed.
Print Assumptions C53_array.
Theorem C53_boolean_partial : forall w b, denotes w (PBool b) -> unwrap (boolean w) = Some (PBool b) /\ item_string (boolean w) = w.
Proof. intros w b H. inversion H; subst; split; reflexivity. Qed.
Print Assumptions C53_boolean_partial.

(** C53 is false of what is no value: the end of the text is not looked at, so a comment is dropped and a second pair is ignored without a report; *)
Theorem C53_rest_refuted : forall src, In src [L "a = 1 # note"; L "a = 1 b = 2"; L "a = 1]"] ->
  exists K it d, key_value src = Ok (K, it) /\ new_document K it = Ok d /\ cont_string d = L "a = 1".
Proof. intros src [<-|[<-|[<-|[]]]]; (eexists _, _, _; split; [vm_compute; reflexivity|split; [vm_compute; reflexivity|vm_compute; reflexivity]]). Qed.
Print Assumptions C53_rest_refuted.
(** [array] makes what is no array; *)
Theorem C53_array_refuted : exists it, array (Some (L "1")) = Ok it /\ unwrap it = Some (PInt 1).
Proof. eexists. split; [vm_compute; reflexivity|vm_compute; reflexivity]. Qed.
Print Assumptions C53_array_refuted.
(** [boolean] of anything else, true with a blank behind it for one, is false. *)
Theorem C53_boolean_refuted : forall w, w <> L "true" -> unwrap (boolean w) = Some (PBool false).
Proof. intros w N. unfold boolean. destruct (str_eqb w (L "true")) eqn:E; [apply str_eqb_eq in E; congruence|reflexivity]. Qed.
Print Assumptions C53_boolean_refuted.

(** A dotted key, a nested value, a comment and more text. *)
Example C53_example : exists K it d, key_value (L " a.b = [1, {c = 2}] # note" ++ [10]%N ++ L "more") = Ok (K, it) /\ new_document K it = Ok d /\
  cont_string d = L " a.b = [1, {c = 2}]" /\ unwrap_cont d = Some [(L "a", PDict [(L "b", PList [PInt 1; PDict [(L "c", PInt 2)]])])].
Proof. do 3 eexists. split; [vm_compute; reflexivity|split; [vm_compute; reflexivity|split; [vm_compute; reflexivity|vm_compute; reflexivity]]]. Qed.
