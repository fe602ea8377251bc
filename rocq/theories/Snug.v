(** Snug: values whose inline tables are well kept, entry by entry (C49). *)
From Verif Require Import Base Source Utils Items Container Arrays Parser Lemmas Text Render TextValue Consist OMap ContOps Wf PyVal PyItem ItemConv Unwrap ListSpec ArrayLemmas Grammar Denote Lines CompNum CompDate ValueEnd.
From Coq Require Import ZifyBool ZifyNat ZifyN.
Open Scope nat_scope.
Notation bent := (option skey * item)%type.

(** * The text of an inline table *)
Definition hollow (e : bent) : Prop := fst e = None /\ match snd e with IWs s _ => Grammar.blanks s | INull => True | _ => False end.
Lemma hollow_text e : hollow e -> Grammar.blanks (item_string (snd e)) /\ ctext [e] = item_string (snd e).
Proof. intros [A B]. destruct e as [k i]. cbn [fst snd] in *. subst k. split; [|cbn; apply app_nil_r]. destruct i; try contradiction B; [exact B|constructor]. Qed.
Lemma ctext_cons e b : ctext (e :: b) = ctext [e] ++ ctext b.
Proof. cbn. rewrite app_nil_r. reflexivity. Qed.
Lemma ctexts_app a b : ctext (a ++ b) = ctext a ++ ctext b.
Proof. unfold ctext. apply flat_map_app. Qed.
Lemma hollow_last w : Forall hollow w -> forall i acc, last_keyed w i acc = acc.
Proof. induction 1 as [|[k v] w [A _] _ IH]; intros; cbn; auto. cbn in A. subst k. auto. Qed.
Lemma hollows_text w : Forall hollow w -> Grammar.blanks (ctext w).
Proof. induction 1 as [|e w He _ IH]; [constructor|]. rewrite ctext_cons. destruct (hollow_text e He) as [A ->]. apply Forall_app. split; assumption. Qed.
Lemma blank_lastc s : Grammar.blanks s -> s = [] \/ lastc s.
Proof.
  intros H. destruct s as [|c s]; [left; reflexivity|]. right. apply lastc_all; [discriminate|]. eapply Forall_impl; [|exact H]. cbn. intros x [->| ->]; discriminate.
Qed.
Lemma fold_hollow n last w : Forall hollow w -> forall i buf, lastc buf ->
  snd (fold_left (istep n last false) w (i, buf)) = buf ++ ctext w /\ lastc (buf ++ ctext w).
Proof.
  induction 1 as [|[k v] w He _ IH]; intros i buf Hl; [cbn; rewrite app_nil_r; auto|]. destruct (hollow_text _ He) as [A B]. destruct He as [K _]. cbn [fst] in K. subst k.
  rewrite ctext_cons, B. cbn [fold_left istep snd] in *. set (buf' := if Nat.eqb i (n - 1) then _ else buf). assert (E : buf' = buf).
  { unfold buf'. destruct (Nat.eqb i (n - 1)); [|reflexivity]. apply rstrip_comma. right. exact Hl. }
  clearbody buf'. subst buf'. rewrite app_assoc. apply IH. destruct (blank_lastc _ A) as [->|L]; [rewrite app_nil_r; exact Hl|apply lastc_app; exact L].
Qed.
Lemma hollow_text_kv b0 k v w m p tks d t : lastc (ient k v) -> Forall hollow w ->
  item_string (IInline (Cont (b0 ++ (Some k, v) :: w) m p tks d) t false) = [chLCB] ++ (ctext b0 ++ ient k v ++ ctext w) ++ [chRCB].
Proof.
  intros Hl Hw. rewrite inline_string. rewrite last_keyed_app. cbn [last_keyed]. rewrite hollow_last by exact Hw. cbn [plus].
  rewrite fold_left_app, fold_pre; [|lia|rewrite app_length; cbn; lia]. cbn [fold_left istep plus]. rewrite Nat.ltb_irrefl.
  destruct (fold_hollow (List.length (b0 ++ (Some k, v) :: w)) (Some (List.length b0)) w Hw (S (List.length b0)) (([chLCB] ++ ctext b0) ++ ient k v)) as [A _].
  - apply lastc_app. exact Hl.
  - rewrite A. rewrite <- !app_assoc. reflexivity.
Qed.
Lemma hollow_text_ws w m p tks d t : Forall hollow w -> item_string (IInline (Cont w m p tks d) t false) = [chLCB] ++ ctext w ++ [chRCB].
Proof.
  intros Hw. rewrite inline_string. destruct (fold_hollow (List.length w) (last_keyed w 0 None) w Hw 0 [chLCB]) as [A _].
  - exists [], chLCB. split; [reflexivity|discriminate].
  - rewrite A, <- app_assoc. reflexivity.
Qed.

(** ** Made by [tomlkit.inline_table()] or from a dict in a list *)
Definition null_entry (e : bent) : Prop := fst e = None /\ snd e = INull.
Definition ntext (body : list bent) : str := flat_map (fun kv : bent => match fst kv with Some k => ient k (snd kv) ++ [chCOMMA; chSP] | None => item_string (snd kv) end) body.
Lemma fold_before n li b0 : forall i buf, i + List.length b0 <= li -> S li <= n -> fold_left (istep n (Some li) true) b0 (i, buf) = (i + List.length b0, buf ++ ntext b0).
Proof.
  induction b0 as [|[k v] b0 IH]; intros i buf H1 H2; cbn [fold_left ntext flat_map List.length]; [rewrite app_nil_r, Nat.add_0_r; reflexivity|].
  cbn [List.length] in H1. destruct k as [k|]; cbn [istep fst snd].
  - replace (Nat.ltb i li) with true by (symmetry; apply Nat.ltb_lt; lia). rewrite IH by lia. fold (ntext b0). f_equal; [lia|]. rewrite <- !app_assoc. reflexivity.
  - replace (Nat.eqb i (n - 1)) with false by (symmetry; apply Nat.eqb_neq; lia). rewrite IH by lia. fold (ntext b0). f_equal; [lia|]. rewrite <- !app_assoc. reflexivity.
Qed.
Lemma rstrip_end s : endc s -> rstrip_p (fun c => ((c =? chCOMMA) || (c =? chSP))%N) s = s.
Proof.
  intros (a & c & -> & H1 & H2). unfold rstrip_p. rewrite rev_app_distr. cbn [rev app drop_while]. apply N.eqb_neq in H1, H2. unfold chCOMMA, chSP. rewrite H1, H2. cbn [orb rev]. rewrite rev_involutive. reflexivity.
Qed.
Lemma fold_null n last w : Forall null_entry w -> forall i buf, endc buf -> snd (fold_left (istep n last true) w (i, buf)) = buf.
Proof.
  induction 1 as [|[k v] w [Ek Ev] _ IH]; intros i buf Hl; [reflexivity|]. cbn [fst snd] in Ek, Ev. subst. cbn [fold_left istep item_string]. rewrite app_nil_r. replace (if Nat.eqb i (n - 1) then rstrip_p _ buf else buf) with buf by (destruct (Nat.eqb i (n - 1)); [rewrite rstrip_end by exact Hl|]; reflexivity). apply IH, Hl.
Qed.
Lemma null_last w : Forall null_entry w -> forall i acc, last_keyed w i acc = acc.
Proof. induction 1 as [|[k v] w [A _] _ IH]; intros; cbn; auto. cbn in A. subst k. auto. Qed.
Lemma new_text_kv b0 k v w m p tks d t : endc (ient k v) -> Forall null_entry w ->
  item_string (IInline (Cont (b0 ++ (Some k, v) :: w) m p tks d) t true) = [chLCB] ++ (ntext b0 ++ ient k v) ++ [chRCB].
Proof.
  intros Hl Hw. rewrite inline_string. rewrite last_keyed_app. cbn [last_keyed]. rewrite null_last by exact Hw. cbn [plus].
  rewrite fold_left_app, fold_before; [|lia|rewrite app_length; cbn; lia]. cbn [fold_left istep plus]. rewrite Nat.ltb_irrefl. rewrite fold_null; [|exact Hw|apply endc_app; exact Hl]. rewrite <- !app_assoc. reflexivity.
Qed.
Lemma new_text_none w m p tks d t : Forall null_entry w -> item_string (IInline (Cont w m p tks d) t true) = [chLCB; chRCB].
Proof. intros Hw. rewrite inline_string. rewrite fold_null; [reflexivity|exact Hw|]. exists [], chLCB. split; [reflexivity|split; discriminate]. Qed.

Lemma ntext_cons e b : ntext (e :: b) = ntext [e] ++ ntext b.
Proof. cbn. rewrite app_nil_r. reflexivity. Qed.

(** * Arrays with other values *)
Fixpoint plug (gs : list (agroup item)) (its : list item) : list (agroup item) :=
  match gs with
  | [] => []
  | g :: r => match g_real g, its with Some _, x :: its => set_gvalue (Some x) g :: plug r its | _, _ => g :: plug r its end
  end.
Lemma plug_reals gs : forall its, List.length its = List.length (reals gs) -> Forall real its -> reals (plug gs its) = its.
Proof.
  induction gs as [|g gs IH]; intros its E F; [destruct its; [reflexivity|discriminate]|]. change (reals (g :: gs)) with (greal g ++ reals gs) in E. cbn [plug]. destruct (g_real g) as [y|] eqn:G.
  - unfold greal in E. rewrite G in E. destruct its as [|x its]; [discriminate|]. injection E as E. inversion F; subst. change (reals (?a :: ?b)) with (greal a ++ reals b). rewrite IH by assumption. unfold greal, g_real. cbn [set_gvalue g_value]. rewrite real_null by assumption. reflexivity.
  - unfold greal in E. rewrite G in E. cbn [app] in E. change (reals (g :: plug gs its)) with (greal g ++ reals (plug gs its)). rewrite IH by assumption. unfold greal. rewrite G. reflexivity.
Qed.
Lemma plug_same gs : plug gs (reals gs) = gs.
Proof.
  induction gs as [|g gs IH]; [reflexivity|]. change (reals (g :: gs)) with (greal g ++ reals gs). cbn [plug]. unfold greal. destruct (g_real g) as [y|] eqn:G; cbn [app]; [|rewrite IH; reflexivity]. rewrite IH. f_equal.
  unfold g_real in G. destruct g as [i [v|] c m]; cbn [g_value] in G; [|discriminate]. destruct (is_null v); [discriminate|]. injection G as <-. reflexivity.
Qed.
Lemma plug_plug gs : forall a b, List.length a = List.length (reals gs) -> List.length b = List.length (reals gs) -> Forall real a -> plug (plug gs a) b = plug gs b.
Proof.
  induction gs as [|g gs IH]; intros a b Ea Eb F; [reflexivity|]. change (reals (g :: gs)) with (greal g ++ reals gs) in *. cbn [plug]. destruct (g_real g) as [y|] eqn:G; unfold greal in *; rewrite G in *; cbn [app List.length] in *.
  - destruct a as [|x a]; [discriminate|]. destruct b as [|z b]; [discriminate|]. injection Ea as Ea. injection Eb as Eb. inversion F; subst. cbn [plug]. replace (g_real (set_gvalue (Some x) g)) with (Some x) by (unfold g_real; cbn [set_gvalue g_value]; rewrite real_null by assumption; reflexivity). rewrite IH by assumption. reflexivity.
  - cbn [plug]. rewrite G. rewrite IH by assumption. reflexivity.
Qed.
(** Whatever values are put into it, the text is that of an array of these values. *)
Definition takes_all (gs : list (agroup item)) : Prop := forall its vs, List.length its = List.length (reals gs) -> Forall real its ->
  Forall2 (fun i v => denotes (item_string i) v) its vs -> elements false (flat_map gtext (plug gs its)) vs.
Lemma takes_plug gs its : takes_all gs -> List.length its = List.length (reals gs) -> Forall real its -> takes_all (plug gs its).
Proof. intros H E F xs vs L R D. rewrite plug_reals in L by assumption. rewrite plug_plug by (assumption || congruence). apply H; [congruence|exact R|exact D]. Qed.

(** * The invariant *)
(** White space around a pair: no comment, no line break. *)
Definition close_set (t : trivia) : Prop := Grammar.blanks (tr_indent t) /\ tr_comment t = [] /\ (tr_trail t = [] \/ tr_trail t = [chLF]).
Definition is_inline (it : item) : Prop := match it with IInline _ _ _ => True | _ => False end.
(** A container to which pairs can be added: it comes from a text, or has only pairs and gaps. *)
Definition addable (c : container) : Prop := c_parsed c = true \/ Forall (fun e : bent => snd e = INull \/ plain (snd e)) (c_body c).
Definition nullp (e : bent) : Prop := snd e = INull \/ plain (snd e).
(** Neither an inline table nor an array. *)
Definition atom (it : item) : Prop := match it with IInline _ _ _ | IArray _ _ _ => False | _ => True end.
Definition unmoved (i : item) : Prop := forall t, item_string (set_trivia t i) = item_string i.
Inductive snug : item -> pyv -> Prop :=
  | sg_other it v v' : atom it -> denotes (item_string it) v -> unwrap it = Some v' -> pyeq v' v -> snug it v
  | sg_inline c t new l : consistent c -> addable c -> (new = true -> c_parsed c = false) -> sfields [] (c_body c) l -> snug (IInline c t new) (PDict (dict_of l))
  | sg_array gs t vs : Forall real (reals gs) -> takes_all gs -> selems (reals gs) vs -> snug (IArray gs t false) (PList vs)
with selems : list item -> list pyv -> Prop :=
  | se_nil : selems [] []
  | se_cons i v l vs : snug i v -> selems l vs -> selems (i :: l) (v :: vs)
with sfields : list (str * node) -> list bent -> list (str * node) -> Prop :=
  | sf_nil l : sfields l [] l
  | sf_void e b l l2 : hollow e -> sfields l b l2 -> sfields l (e :: b) l2
  | sf_pair sk it v b l l2 : k_dotted sk = false -> name_means (k_orig sk) (k_key sk) -> sep_text (k_sep sk) -> plain it -> unmoved it -> close_set (item_trivia it) -> snug it v ->
      ~ In (k_key sk) (map fst l) -> sfields (l ++ [(k_key sk, Value v)]) b l2 -> sfields l ((Some sk, it) :: b) l2
  | sf_dotted sk it k s w e ns v b l l1 l2 : is_table it = true -> ient sk it = k ++ s ++ w ++ e -> key_means k (k_key sk :: ns) -> ns <> [] -> sep_text s -> denotes w v -> Grammar.blanks e ->
      lastc (ient sk it) -> dent (k_key sk :: ns) v sk it -> put (k_key sk :: ns) v l l1 -> sfields l1 b l2 -> sfields l ((Some sk, it) :: b) l2.
Scheme snug_mut := Induction for snug Sort Prop with selems_mut := Induction for selems Sort Prop with sfields_mut := Induction for sfields Sort Prop.
Combined Scheme snugs_mut from snug_mut, selems_mut, sfields_mut.
Lemma elems_all l vs : selems l vs <-> Forall2 snug l vs.
Proof. split; induction 1; constructor; auto. Qed.
Definition said (l : list (str * node)) (b : list bent) (l2 : list (str * node)) : Prop :=
  (Forall hollow b /\ l2 = l) \/ exists b0 k v w, b = b0 ++ (Some k, v) :: w /\ Forall hollow w /\ lastc (ient k v) /\ fields l (ctext b0 ++ ient k v ++ ctext w) l2.
Lemma pair_ient sk it : k_dotted sk = false -> close_set (item_trivia it) -> ient sk it = tr_indent (item_trivia it) ++ k_orig sk ++ k_sep sk ++ item_string it.
Proof.
  intros D (A & B & C). unfold ient. rewrite D, B. replace (replace [chLF] [] (tr_trail (item_trivia it))) with (@nil N) by (destruct C as [-> | ->]; reflexivity). cbn [app]. rewrite !app_nil_r. reflexivity.
Qed.
Lemma blanks_fields b l w l2 : Grammar.blanks b -> fields l w l2 -> fields l (b ++ w) l2.
Proof.
  intros Hb H. inversion H as [b0 k names s u v z ? ? Hb0 Hk Hs Hu Hz Hp|b0 k names s u v z r ? l1 ? Hb0 Hk Hs Hu Hz Hp Hr]; subst.
  - rewrite (app_assoc b b0). eapply fd_last; eauto. apply Forall_app. auto.
  - rewrite (app_assoc b _ ([44%N] ++ r)), (app_assoc b b0). eapply fd_more; eauto. apply Forall_app. auto.
Qed.
Lemma said_pair sk it a k names s w v z l l1 b l2 : ient sk it = a ++ k ++ s ++ w ++ z -> lastc (ient sk it) -> Grammar.blanks a -> key_means k names -> sep_text s -> denotes w v -> Grammar.blanks z ->
  put names v l l1 -> said l1 b l2 -> said l ((Some sk, it) :: b) l2.
Proof.
  intros E La Ha Hk Hs Hw Hz Hp [[F ->]|(b0 & k2 & v2 & w2 & -> & F & L2 & Fd)]; right.
  - exists [], sk, it, b. split; [reflexivity|]. split; [exact F|]. split; [exact La|]. rewrite E. cbn [ctext flat_map app]. rewrite <- !app_assoc. eapply fd_last; eauto. apply Forall_app. split; [exact Hz|apply hollows_text, F].
  - exists ((Some sk, it) :: b0), k2, v2, w2. split; [reflexivity|]. split; [exact F|]. split; [exact L2|]. rewrite ctext_cons. cbn [ctext flat_map fst snd]. fold (ctext b0). rewrite app_nil_r, E. remember (ctext b0 ++ ient k2 v2 ++ ctext w2) as r. replace ((((a ++ k ++ s ++ w ++ z) ++ [chCOMMA]) ++ ctext b0) ++ ient k2 v2 ++ ctext w2) with ((a ++ k ++ s ++ w ++ z) ++ [44%N] ++ r) by (subst r; rewrite <- !app_assoc; reflexivity). eapply fd_more; eauto.
Qed.
Definition said_new (l : list (str * node)) (b : list bent) (l2 : list (str * node)) : Prop :=
  (Forall null_entry b /\ l2 = l) \/ exists b0 k v w, b = b0 ++ (Some k, v) :: w /\ Forall null_entry w /\ endc (ient k v) /\ fields l (ntext b0 ++ ient k v) l2.
Lemma endc_last s : endc s -> lastc s.
Proof. intros (u & c & -> & H & _). exists u, c. auto. Qed.
Theorem snug_says : (forall it v, snug it v -> denotes (item_string it) v) /\ (forall l vs, selems l vs -> Forall2 (fun i v => denotes (item_string i) v) l vs) /\ (forall l b l2, sfields l b l2 -> said l b l2 /\ (Forall nullp b -> said_new l b l2)).
Proof.
  apply snugs_mut.
  - auto.
  - intros [body m p tks d] t new l _ A Np _ [H Hn]. cbn [c_body] in *. destruct new.
    + destruct A as [A|A]; [rewrite (Np eq_refl) in A; discriminate|]. cbn [c_body] in A. destruct (Hn A) as [[G ->]|(b0 & k & x & w & -> & G & La & Fd)].
      * rewrite new_text_none by exact G. apply (dn_empty []). constructor.
      * rewrite new_text_kv by assumption. apply dn_inline, Fd.
    + destruct H as [[F E]|(b0 & k & v & w & -> & F & La & Fd)].
      * rewrite hollow_text_ws by exact F. subst l. apply (dn_empty (ctext body)). apply hollows_text, F.
      * rewrite hollow_text_kv by assumption. apply dn_inline, Fd.
  - intros gs t vs R T _ D. rewrite array_string. apply (dn_array (flat_map gtext gs)). rewrite <- (plug_same gs). apply T; [reflexivity|exact R|exact D].
  - constructor.
  - intros; constructor; auto.
  - intros l. split; [left; split; [constructor|reflexivity]|]. intros _. left. split; [constructor|reflexivity].
  - intros e b l l2 He _ [IH IHn]. split.
    + destruct IH as [[F ->]|(b0 & k & v & w & -> & F & La & Fd)].
      * left. split; [constructor; assumption|reflexivity].
      * right. exists (e :: b0), k, v, w. split; [reflexivity|]. split; [exact F|]. split; [exact La|]. destruct (hollow_text e He) as [A B]. rewrite ctext_cons, B, <- app_assoc. apply blanks_fields; assumption.
    + intros F. inversion F as [|? ? N F']; subst. assert (Ne : null_entry e). { destruct He as [A B]. split; [exact A|]. destruct N as [N|N]; [exact N|]. destruct e as [? i]. cbn [snd] in *. destruct i; try destruct N; destruct B. }
      destruct (IHn F') as [[G ->]|(b0 & k & v & w & -> & G & La & Fd)]; [left; split; [constructor; assumption|reflexivity]|right]. exists (e :: b0), k, v, w. split; [reflexivity|]. split; [exact G|]. split; [exact La|].
      destruct e as [ek ev], Ne as [Ek Ev]. cbn [fst snd] in *. subst. exact Fd.
  - intros sk it v b l l2 Kd Nm Sp P U C Sn D Nk _ [IH IHn]. pose proof (pair_ient sk it Kd C) as E.
    assert (La : endc (ient sk it)) by (rewrite E; do 3 apply endc_app; eapply denotes_endc, D). assert (Pt : Denote.put [k_key sk] v l (l ++ [(k_key sk, Value v)])) by (constructor; exact Nk). split.
    + apply (said_pair sk it (tr_indent (item_trivia it)) (k_orig sk) [k_key sk] (k_sep sk) (item_string it) v [] l (l ++ [(k_key sk, Value v)]) b l2); auto.
      * rewrite app_nil_r. exact E.
      * apply endc_last, La.
      * apply C.
      * apply km_one, Nm.
      * constructor.
    + intros F. inversion F as [|? ? _ F']; subst. right. destruct (IHn F') as [[G ->]|(b0 & k2 & v2 & w2 & -> & G & L2 & Fd)].
      * exists [], sk, it, b. split; [reflexivity|]. split; [exact G|]. split; [exact La|]. cbn [ntext flat_map app]. rewrite E. rewrite <- (app_nil_r (item_string it)). eapply fd_last; eauto; [apply C|apply km_one, Nm|constructor].
      * exists ((Some sk, it) :: b0), k2, v2, w2. split; [reflexivity|]. split; [exact G|]. split; [exact L2|]. rewrite ntext_cons. cbn [ntext flat_map fst snd]. fold (ntext b0). rewrite app_nil_r, E. remember (ntext b0 ++ ient k2 v2) as r.
        replace ((((tr_indent (item_trivia it) ++ k_orig sk ++ k_sep sk ++ item_string it) ++ [chCOMMA; chSP]) ++ ntext b0) ++ ient k2 v2) with ((tr_indent (item_trivia it) ++ k_orig sk ++ k_sep sk ++ item_string it ++ []) ++ [44%N] ++ ([32%N] ++ r)) by (subst r; rewrite app_nil_r, <- !app_assoc; reflexivity).
        eapply fd_more; eauto; [apply C|apply km_one, Nm|constructor|]. apply blanks_fields; [constructor; [left; reflexivity|constructor]|exact Fd].
  - intros sk it k s w e ns v b l l1 l2 T E K _ S D B La _ P _ [IH _]. split; [eapply (said_pair sk it [] k (k_key sk :: ns) s w v e); eauto; constructor|].
    intros F. inversion F as [|? ? N F']; subst. exfalso. destruct N as [N|N]; cbn [snd] in N; [subst it; discriminate|]. destruct it; try destruct N; discriminate.
Qed.
Lemma snug_text it v : snug it v -> denotes (item_string it) v. Proof. apply snug_says. Qed.
Lemma snug_last it v : snug it v -> lastc (item_string it). Proof. intros H. eapply endc_last, denotes_endc, snug_text, H. Qed.
Lemma unmoved_trivia t it : plain it -> unmoved it -> unmoved (set_trivia t it).
Proof. intros P U u. transitivity (item_string it); [|symmetry; apply U]. replace (set_trivia u (set_trivia t it)) with (set_trivia u it) by (destruct it; try destruct P; reflexivity). apply U. Qed.
Lemma snug_trivia it v t : plain it -> unmoved it -> snug it v -> snug (set_trivia t it) v.
Proof.
  intros P U H. inversion H as [? ? v' N D W Q|c u new l C A Np F|gs u vs R T E]; subst.
  - apply (sg_other _ _ v'); [|rewrite U; exact D|rewrite unwrap_trivia; exact W|exact Q]. destruct it; try destruct P; exact N.
  - cbn [set_trivia]. apply sg_inline; assumption.
  - cbn [set_trivia]. apply sg_array; assumption.
Qed.
Lemma inline_unmoved c t b : unmoved (IInline c t b).
Proof. intros u. destruct c. reflexivity. Qed.
Lemma sfields_app l a l1 b l2 : sfields l a l1 -> sfields l1 b l2 -> sfields l (a ++ b) l2.
Proof.
  intros H. revert l2. induction H; intros l3 Q; cbn [app]; [exact Q|eapply sf_void; eauto|eapply sf_pair; eauto|eapply sf_dotted; eauto].
Qed.
Lemma sfields_cut a : forall l b l2, sfields l (a ++ b) l2 -> exists l1, sfields l a l1 /\ sfields l1 b l2.
Proof.
  induction a as [|e a IH]; intros l b l2 H; cbn [app] in H; [exists l; split; [constructor|exact H]|].
  inversion H; subst; match goal with Q : sfields _ (a ++ b) _ |- _ => destruct (IH _ _ _ Q) as (l3 & A & B) end; exists l3; (split; [|exact B]); [eapply sf_void; eauto|eapply sf_pair; eauto|eapply sf_dotted; eauto].
Qed.
