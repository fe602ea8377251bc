(** DocNeat: what the parser makes of a TOML document that ends with a line break is
    neat (C43, C44). *)
From Verif Require Import Base Source Utils Items Container Arrays Parser Api Lemmas Wf Render ContOps PyVal PyItem ItemConv Unwrap Lines Grammar Denote Document Neat Ends DocSpot DocRun.
From Coq Require Import ZifyBool ZifyNat ZifyN.
Open Scope nat_scope.

Definition after (e : entry) : entry := match e with (k, v) => (k, parsing_item false v) end.
Lemma after_body c : c_body (parsing_cont false c) = map after (c_body c).
Proof. destruct c. reflexivity. Qed.
Lemma after_plain es : has_plain (map after es) = has_plain es.
Proof. unfold has_plain. induction es as [|[k v] es IH]; [reflexivity|]. cbn [map existsb snd after]. rewrite IH. destruct v; reflexivity. Qed.
Lemma after_line e x : nline e x -> nline (after e) x.
Proof.
  intros H. inversion H as [i Hi Hv Hc|sk it v P D Kd N Sp T|sk c m ns v a k s w t Kd Tr Ti0 Su0 Ne Et Ep Ha Hk Hs D Ht Dn]; subst; cbn [after].
  - destruct i; try destruct Hi; apply nl_void; auto; exact I.
  - rewrite plain_parsing by exact P. exact H.
  - cbn [parsing_item]. pose proof (proj1 (parsing_text false) (ITable c m) (Some sk)) as X. cbn [parsing_item] in X. apply (nl_dotted sk (parsing_cont false c) m ns v a k s w t); auto; [rewrite super_parsing; exact Su0|rewrite X; exact Et| |]; [intros pfx; rewrite !X; apply Ep|exact (dent_parsing _ _ _ _ Dn)].
Qed.
Lemma after_lines l es l2 : nlines l es l2 -> nlines l (map after es) l2.
Proof. induction 1 as [l|e es l l2 H _ IH|e names v es l l1 l2 H P _ IH]; cbn [map]; [constructor|eapply ns_void|eapply ns_pair]; eauto using after_line. Qed.
Lemma after_neat :
  (forall tops path pfx b1 b2 d, nbody tops path pfx b1 b2 d -> nbody tops path pfx (map after b1) (map after b2) d) /\
  (forall tops path pfx es l, ntables tops path pfx es l -> ntables tops path pfx (map after es) l) /\
  (forall tops path pfx sk it v, ntable tops path pfx sk it v -> ntable tops path pfx sk (parsing_item false it) v) /\
  (forall tops path key L ds, nelems tops path key L ds -> nelems tops path key (map (fun x => match x with (c, m) => (parsing_cont false c, m) end) L) ds).
Proof.
  apply neat_mut.
  - intros tops path pfx b1 b2 ps l H _ IH Nd. constructor; auto using after_lines.
  - constructor.
  - intros tops path pfx e es l Sk Vo _ IH. cbn [map]. destruct e as [k i]. cbn [after snd] in *. apply nt_skip; [| |exact IH]; destruct Sk as (Sk & Si & Lc); cbn [fst snd] in *; [split; [exact Sk|]|]; destruct i; try (exfalso; exact Si); first [split; [exact I|exact Lc]|exact Vo].
  - intros tops path pfx sk it v es l _ IH _ IH2. cbn [map after]. apply nt_cons; assumption.
  - intros tops path pfx sk c m b1 b2 d Kd Nm Ta Sh Ti Hk Su Eb _ IH. cbn [parsing_item]. apply nt_shown with (b1 := map after b1) (b2 := map after b2); auto.
    + unfold shown in *. rewrite super_parsing, after_body, after_plain. exact Sh.
    + intros E. destruct (Su E) as (X1 & X2 & X5). split; [exact X1|]. split.
      * clear - X2. induction X2 as [|[k v] es H _ IH]; cbn [map]; constructor; auto. destruct H as [[H1 H2]|[H P]]; cbn [after fst snd] in *; [left; split; [exact H1|]; cbn [snd]; destruct H2 as [H2 Lc]; destruct v; try (exfalso; exact H2); split; try exact I; exact Lc|]. right. cbn [fst snd]. rewrite plain_parsing by exact P. auto.
      * intros E2. destruct (X5 E2) as (e & X3 & X4). exists (after e). split; [rewrite <- map_app; apply in_map, X3|]. destruct e. exact X4.
    + rewrite after_body, Eb, map_app. reflexivity.
  - intros tops path pfx sk c m l Kd Nm Ta Su Hp Ti Hk Nt _ IH Ne Nd. cbn [parsing_item]. apply nt_hidden; auto; rewrite ?super_parsing, ?after_body, ?after_plain; auto.
  - intros tops path pfx sk L n p t ds Kd Nm Ne _ IH. cbn [parsing_item]. apply nt_aot; assumption.
  - constructor.
  - intros tops path key c m L b1 b2 d ds Ti Hk Eb _ IH _ IH2. cbn [map]. econstructor; [exact Ti|exact Hk| |exact IH|exact IH2]. rewrite after_body, Eb, map_app. reflexivity.
Qed.
Theorem document_neat w d : document_means w d -> fin [] w -> exists c, parse w = Ok c /\ unwrap_cont c = Some d /\ neat c d.
Proof.
  intros H Fn. destruct (document_parsed_full True w d H (fun _ => Fn)) as (c & E & Hs & W). exists (parsing_cont false c). split; [exact E|]. split; [apply holds_after, Hs|].
  destruct (W I) as (b1 & b2 & ps & l & Eb & _ & Nl & -> & Nd & Nt). exists (map after b1), (map after b2). split; [rewrite after_body, Eb, map_app; reflexivity|]. apply after_neat. constructor; [exact Nl|apply Nt; reflexivity|exact Nd].
Qed.
