(** SurgeryFacts: small edits change one stretch of the text (C46). *)
From Verif Require Import Base Source Utils Items Container Arrays Parser Api Lemmas Wf Errors Render Consist OMap ContOps ContText PyVal PyItem ItemConv DumpValue Numbers Dates DumpText DumpCont DumpRender Grammar Denote Snug CompValue Written Lines Document Spelling Edit Changes Possible ListSpec Surgery Neat EditNeat MadeSnug MadeNeat EditOps InsideFacts EditMore EditSwap EditAll.
From Coq Require Import ZifyBool ZifyNat ZifyN.
Open Scope nat_scope.

(** * Whole lines *)
Lemma starts_nil : starts []. Proof. left. reflexivity. Qed.
Lemma starts_app a b : starts a -> starts b -> starts (a ++ b).
Proof. intros Ha [->|[y ->]]; [rewrite app_nil_r; exact Ha|]. right. exists (a ++ y). rewrite app_assoc. reflexivity. Qed.
Lemma starts_end a b : starts b -> b <> [] -> starts (a ++ b).
Proof. intros [->|[y ->]] H; [contradiction|]. right. exists (a ++ y). rewrite app_assoc. reflexivity. Qed.
Lemma tail_starts z t : line_tail z t -> z <> [] -> starts t /\ t <> [].
Proof.
  intros (b & c & e & -> & _ & _ & [->|[->|[_ X]]]) Hz; [| |contradiction]; (split; [right|destruct b; [destruct c|]; discriminate]).
  - exists (b ++ c). rewrite <- app_assoc. reflexivity.
  - exists (b ++ c ++ [13%N]). rewrite <- !app_assoc. reflexivity.
Qed.
Lemma pairs_starts z l w l2 : pair_lines z l w l2 -> z <> [] -> starts w.
Proof.
  intros H Hz. assert (Nz : forall w : str, w ++ z <> []) by (intros w0 X; apply app_eq_nil in X; tauto). induction H as [l|t w l l2 T _ IH|a k names s v x t w l l1 l2 _ _ _ _ _ T _ IH]; [apply starts_nil| |].
  - apply starts_app; [apply (tail_starts _ _ T), Nz|exact IH].
  - apply starts_app; [|exact IH]. rewrite !app_assoc. destruct (tail_starts _ _ T (Nz w)). apply starts_end; assumption.
Qed.
Lemma header_starts z b names h : Document.header z b names h -> z <> [] -> starts h.
Proof. intros (a & k & t & _ & _ & T & ->) Hz. destruct (tail_starts _ _ T Hz). rewrite app_assoc. apply starts_end; assumption. Qed.
Lemma body_starts_mut :
  (forall tops path z w d, body tops path z w d -> z <> [] -> starts w) /\
  (forall tops path z w l, tables tops path z w l -> z <> [] -> starts w) /\
  (forall tops path z k w v, table tops path z k w v -> z <> [] -> starts w) /\
  (forall tops path z w ds, array_elements tops path z w ds -> z <> [] -> starts w).
Proof.
  assert (Nz : forall w z : str, z <> [] -> w ++ z <> []) by (intros w z Hz X; apply app_eq_nil in X; tauto).
  apply document_mut.
  - intros tops path z u ps w l P _ IH _ Hz. apply starts_app; [eapply pairs_starts; [exact P|]; auto|auto].
  - intros. apply starts_nil.
  - intros tops path z k v u w l _ IH1 _ IH2 Hz. apply starts_app; auto.
  - intros tops path z k h w d H _ IH Hz. apply starts_app; [eapply header_starts; [exact H|]; auto|auto].
  - intros; auto.
  - intros; auto.
  - intros. apply starts_nil.
  - intros tops path z h u d w ds H _ IH1 _ IH2 Hz. apply starts_app; [eapply header_starts; [exact H|]; auto|apply starts_app; auto].
Qed.
Lemma voids_starts u : voids u -> starts u.
Proof.
  induction 1 as [|t w (b & c & e & -> & _ & _ & He) _ IH]; [apply starts_nil|]. apply starts_app; [|exact IH]. rewrite app_assoc. apply starts_end; destruct He as [->| ->]; [right; exists []; reflexivity|right; exists [13%N]; reflexivity|discriminate|discriminate].
Qed.
Lemma ntables_starts tops path pfx es l : ntables tops path pfx es l -> starts (btext pfx false es).
Proof. intros H. destruct (proj1 (proj2 ntables_text_mut) _ _ _ _ _ H) as (u & w & -> & V & T). apply starts_app; [apply voids_starts, V|]. eapply (proj1 (proj2 body_starts_mut)); [apply (T [0%N])|discriminate]. Qed.
Lemma nelems_starts tops path key L ds : nelems tops path key L ds -> starts (flat_map (fun p => render_aot_table (fst p) (snd p) key) L).
Proof. intros H. destruct (proj2 (proj2 (proj2 ntables_text_mut)) _ _ _ _ _ H) as (u & w & -> & V & T). apply starts_app; [apply voids_starts, V|]. eapply (proj2 (proj2 (proj2 body_starts_mut))); [apply (T [0%N])|discriminate]. Qed.
Lemma prefix_starts tops path pfx b1 b2 d x y : nbody tops path pfx b1 b2 d -> b1 ++ b2 = x ++ y -> starts (btext pfx false x).
Proof.
  intros [tp pt pf c1 c2 ps l H1 H2 _] E. apply app_eq_app in E as (u & [[-> ->]|[-> ->]]).
  - destruct (nlines_cut _ _ _ _ H1) as (l1 & A & _). eapply pairs_starts; [apply (nlines_text _ _ _ A pf [0%N])|discriminate].
  - rewrite btext_app. apply starts_app; [eapply pairs_starts; [apply (nlines_text _ _ _ H1 pf [0%N])|discriminate]|]. destruct (ntables_split _ _ _ _ _ _ H2) as (l1 & l2 & _ & A & _). eapply ntables_starts, A.
Qed.
Lemma eol_rest t : eol t -> line_rest t.
Proof. intros H. exact H. Qed.
Lemma header_line_starts op k cl t : tidyh t -> starts (Items.header op k cl t).
Proof.
  intros (_ & (b & c & e & E & _ & _ & He) & _). rewrite head_text. unfold lead. rewrite E. rewrite !app_assoc. apply starts_end; destruct He as [->| ->]; [right; exists []; reflexivity|right; exists [13%N]; reflexivity|discriminate|discriminate].
Qed.

(** * Headers *)
Lemma head_same c c' tm : tm_super tm = Some false -> inb chLF (tr_trail (tm_trivia tm)) = true -> same_head c c' tm.
Proof. intros S T. unfold same_head, table_head, table_is_super. rewrite S, T. cbn [negb orb andb]. split; reflexivity. Qed.

(** * Along the path *)
Record stretch (pfx : option str) (c c' : container) (M M' : list entry) : Prop := {
  sr_text : exists a b pf, starts a /\ btext pfx false (c_body c) = a ++ btext pf false M ++ b /\ btext pfx false (c_body c') = a ++ btext pf false M' ++ b }.
Lemma path_text p : forall m c tops path pfx b1 b2 d o m' t c' M M', ok_cont c -> c_body c = b1 ++ b2 -> nbody tops path pfx b1 b2 d -> pmeans path pfx ->
  table_at m c p = Some (m', t) -> edit_at m c p o = Ok c' ->
  (forall t', apply_op m' t o = Ok t' -> (exists x y, c_body t = x ++ M ++ y /\ c_body t' = x ++ M' ++ y) /\ forall tm, m' = Some tm -> tm_aot tm = false -> tm_super tm = Some false \/ same_head t t' tm) ->
  stretch pfx c c' M M' /\ (p <> [] -> forall tm, same_head c c' tm).
Proof.
  induction p as [p IH] using (induction_ltof1 _ (@List.length _)). unfold ltof in IH. intros m c tops path pfx b1 b2 d o m' t c' M M' O B H Hp Ta Ed HL. destruct p as [|[k|j] p]; [| |discriminate].
  - cbn [table_at edit_at] in *. injection Ta as <- <-. destruct (HL _ Ed) as ((x & y & E1 & E2) & _). split; [|intros X; contradiction]. constructor. exists (btext pfx false x), (btext pfx false y), pfx. rewrite E1, E2, !btext_app. split; [|split; reflexivity].
    eapply prefix_starts; [exact H|]. rewrite <- B. exact E1.
  - cbn [table_at edit_at] in *. destruct (ok_parts c O) as (C & Pr & F). destruct (map_get k (c_map c)) as [[i|]|] eqn:Mk; try discriminate. destruct (get_one _ _ _ C Mk) as (sk & it & N & K & _). rewrite N in *.
    pose proof (ok_in c i _ O N) as Oi. cbn [snd] in Oi. destruct it as [ | | | | | |tc tm|l n q tr]; try discriminate.
    + destruct (k_dotted sk) eqn:Kd; [discriminate|]. pose proof N as N'. rewrite B in N'. destruct (table_place _ _ _ _ _ _ _ _ _ H N' Kd eq_refl) as (x & y & a & v & b & Eb & Ei & Ed' & Na & Nt & Re).
      destruct (open_table _ _ _ _ _ _ _ Nt) as (c1 & c2 & dd & -> & [T1 T0 T3 T4 T5 T6 T7 T8]). assert (Ot : ok_cont tc) by (inversion Oi; [assumption|discriminate]).
      destruct (edit_at (Some tm) tc p o) as [tc'|] eqn:Et; [|discriminate]. cbn [rbind] in Ed. injection Ed as <-.
      destruct (IH p ltac:(cbn; lia) (Some tm) tc _ _ _ _ _ _ o m' t tc' M M' Ot T7 T8 T5 Ta Et HL) as [[(a' & b' & pf & Sa & E1 & E2)] Hh].
      assert (Sh : same_head tc tc' tm). { destruct p as [|s p]; [|apply Hh; discriminate]. cbn [table_at edit_at] in *. injection Ta as <- <-. destruct (HL _ Et) as (_ & G). destruct (G tm eq_refl T3) as [G1|G1]; [|exact G1]. apply head_same; [exact G1|]. destruct T4 as (_ & _ & T4). apply eol_inb, T4. }
      destruct Sh as [Sh1 Sh2]. split.
      * constructor. exists (btext pfx false (b1 ++ x) ++ table_head tc tm sk pfx ++ a'), (b' ++ btext pfx false y), pf.
        assert (Bc : c_body c = (b1 ++ x) ++ (Some sk, ITable tc tm) :: y) by (rewrite B, Eb, <- app_assoc; reflexivity).
        assert (Bc' : c_body (set_body (list_set i (Some sk, ITable tc' tm) (c_body c)) c) = (b1 ++ x) ++ (Some sk, ITable tc' tm) :: y) by (destruct c as [bd ? ? ? ?]; cbn [set_body c_body] in *; rewrite Bc, Ei; apply set_middle).
        rewrite Bc', Bc, !btext_split. cbn [Render.etext]. rewrite !Kd, !andb_false_r. cbn [andb]. rewrite !render_table_eq, !Kd, <- Sh2, E1, E2, <- !app_assoc. split; [|split; reflexivity].
        apply starts_app; [eapply prefix_starts; [exact H|rewrite Eb, app_assoc; reflexivity]|]. apply starts_app; [|exact Sa].
        unfold table_head. destruct T4 as (G & T4a & T4b). pose proof (eol_inb _ T4b) as Tl. rewrite Tl. cbn [negb andb]. destruct (_ || _); [rewrite app_nil_r; apply header_line_starts; split; [exact G|split; assumption]|].
        destruct (str_eqb _ _) eqn:Es; [|apply starts_nil]. apply str_eqb_eq in Es. rewrite Es. right. exists []. reflexivity.
      * intros _ tm0. apply kinds_head; [destruct c; reflexivity|destruct c; reflexivity|]. destruct c as [bd ? ? ? ?]. cbn [set_body c_body] in *. eapply kinds_set; [exact N|reflexivity|reflexivity].
    + destruct p as [|[|j] p]; try discriminate. destruct (nth_error l j) as [[tc tm]|] eqn:Nj; [|discriminate]. assert (Kd : k_dotted sk = false).
      { destruct H as [tops path pfx b1 b2 ps dl H1 H2 Nd]. assert (Ib : In (Some sk, IAoT l n q tr) (b1 ++ b2)) by (rewrite <- B; eapply nth_error_In, N). apply in_app_iff in Ib as [Ib|Ib].
        - exfalso. apply in_split in Ib as (x & y & ->). destruct (nlines_cut _ _ _ _ H1) as (l1 & _ & A2). inversion A2 as [|? ? ? ? He|? names v0 ? ? ? ? He]; subst; inversion He as [|? ? ? P|]; subst. destruct P.
        - apply ntables_entry in H2. rewrite Forall_forall in H2. destruct (H2 _ Ib) as [[X _]|(s2 & E2 & Kd & _)]; [discriminate|]. injection E2 as <-. exact Kd. }
      pose proof N as N'. rewrite B in N'. destruct (table_place _ _ _ _ _ _ _ _ _ H N' Kd eq_refl) as (x & y & a & v & b & Eb & Ei & Ed' & Na & Nt & Re).
      inversion Nt as [| |? ? ? ? ? ? ? ? ds Kd' Nm Nds Ne]; subst. destruct (open_array _ _ _ _ _ _ _ _ Ne Nj) as (ds1 & dd & ds2 & c1 & c2 & -> & Lj & Ti & T7 & T8 & Rj).
      assert (Ot : ok_cont tc). { inversion Oi as [|? ? ? ? Fo|? X]; subst; [|discriminate]. rewrite Forall_forall in Fo. apply (Fo (tc, tm)). eapply nth_error_In, Nj. }
      destruct (edit_at (Some tm) tc p o) as [tc'|] eqn:Et; [|discriminate]. cbn [rbind] in Ed. injection Ed as <-.
      destruct (IH p ltac:(cbn; lia) (Some tm) tc _ _ _ _ _ _ o m' t tc' M M' Ot T7 T8 (key_means_snoc _ _ _ _ Hp Nm) Ta Et HL) as [[(a' & b' & pf & Sa & E1 & E2)] _].
      split.
      * constructor. set (key0 := prefixed pfx (k_orig sk)) in *. pose proof (nth_error_split _ _ Nj) as (L1 & L2 & El & Ll).
        exists (btext pfx false (b1 ++ x) ++ flat_map (fun p => render_aot_table (fst p) (snd p) key0) L1 ++ Items.header [chLBR; chLBR] key0 [chRBR; chRBR] (tm_trivia tm) ++ a'), (b' ++ flat_map (fun p => render_aot_table (fst p) (snd p) key0) L2 ++ btext pfx false y), pf.
        assert (Bc : c_body c = (b1 ++ x) ++ (Some sk, IAoT l n q tr) :: y) by (rewrite B, <- app_assoc; reflexivity).
        assert (Bc' : c_body (set_body (list_set (List.length (b1 ++ x)) (Some sk, IAoT (list_set j (tc', tm) l) n q tr) (c_body c)) c) = (b1 ++ x) ++ (Some sk, IAoT (L1 ++ (tc', tm) :: L2) n q tr) :: y).
        { destruct c as [bd ? ? ? ?]; cbn [set_body c_body] in *. rewrite Bc, set_middle. rewrite El, <- Ll, set_middle. reflexivity. }
        rewrite Bc', Bc, !btext_split. cbn [Render.etext]. fold key0. rewrite El, !flat_map_app. cbn [flat_map fst snd]. rewrite !render_aot_eq, E1, E2, <- !app_assoc. split; [|split; reflexivity].
        apply starts_app; [eapply prefix_starts; [exact H|rewrite app_assoc; reflexivity]|]. apply starts_app; [|apply starts_app; [apply header_line_starts, Ti|exact Sa]].
        rewrite El in Ne. destruct (nelems_split _ _ _ _ _ _ Ne) as (? & ? & _ & _ & A & _). eapply nelems_starts, A.
      * intros _ tm0. apply kinds_head; [destruct c; reflexivity|destruct c; reflexivity|]. destruct c as [bd ? ? ? ?]. cbn [set_body c_body] in *. eapply kinds_set; [exact N|reflexivity|reflexivity].
Qed.

(** * One edit in a table *)
Record leaf (m : option tmeta) (t : container) (o : eop) (t' : container) (M M' : list entry) : Prop := {
  lf_ok : apply_op m t o = Ok t'; lf_body : exists x y, c_body t = x ++ M ++ y /\ c_body t' = x ++ M' ++ y;
  lf_head : forall tm, m = Some tm -> tm_aot tm = false -> tm_super tm = Some false \/ same_head t t' tm;
  lf_text : forall a pf b, starts a -> stroke o (a ++ btext pf false M ++ b) (a ++ btext pf false M' ++ b) }.
Lemma own_head m (t t' : container) : own_header m -> forall tm, m = Some tm -> tm_aot tm = false -> tm_super tm = Some false \/ same_head t t' tm.
Proof. intros H tm -> A. cbn [own_header] in H. destruct H as [H|H]; [congruence|left; exact H]. Qed.
Lemma line_text pf sk it : plain it -> btext pf false [(Some sk, it)] = tr_indent (item_trivia it) ++ k_orig sk ++ k_sep sk ++ item_string it ++ lead (item_trivia it).
Proof. intros P. rewrite btext_one, etext_plain by exact P. reflexivity. Qed.
Lemma plain_nline tops path pfx b1 b2 d i sk it : nbody tops path pfx b1 b2 d -> nth_error (b1 ++ b2) i = Some (Some sk, it) -> plain it -> exists v, nline (Some sk, it) (Some ([k_key sk], v)).
Proof.
  intros H N P. destruct (plain_before _ _ _ _ _ _ _ _ H N P) as (x & y & -> & _). 
  assert (H1 : exists ps, nlines [] (x ++ (Some sk, it) :: y) ps) by (inversion H; subst; eauto). destruct H1 as [ps H1].
  assert (G : forall l0 es l2, nlines l0 es l2 -> forall x y, es = x ++ (Some sk, it) :: y -> exists v, nline (Some sk, it) (Some ([k_key sk], v))).
  { clear -P. induction 1 as [l|e es l l2 He _ IH|e names v es l l1 l2 He Hp _ IH]; intros x y E.
    - destruct x; discriminate.
    - destruct x as [|e0 x]; injection E as -> ->; [destruct (plain_tidy _ _ _ He P) as [_ [v X]]; discriminate|eapply IH; reflexivity].
    - destruct x as [|e0 x]; injection E as -> ->; [destruct (plain_tidy _ _ _ He P) as [_ [v' X]]; rewrite X in He; eauto|eapply IH; reflexivity]. }
  eapply G; [exact H1|reflexivity].
Qed.
Lemma value_leaf m tops path pfx c b1 b2 d k v : ok_cont c -> c_body c = b1 ++ b2 -> nbody tops path pfx b1 b2 d -> value_at c k -> py_fine v -> tablish v = false ->
  exists c' M M', leaf m c (ESet k v) c' M M'.
Proof.
  intros O B H A Fv Tv. destruct (ok_parts c O) as (C & Pr & F). destruct (get_plain c k C A) as (i & sk & old & M & N & K & Po). subst k.
  destruct (made_item (match m with None => PkNone | Some _ => PkTable end) v Fv Tv) as (it & v' & E & P & Tr & D & Q & St).
  pose proof N as N'. rewrite B in N'. destruct (plain_nline _ _ _ _ _ _ _ _ _ H N' Po) as [v0 Hl]. pose proof (set_item_plain c i sk old it C M N Po P) as Es.
  pose proof (old_line _ _ _ _ _ P Tr D St Hl Po) as Hl'. eexists _, [(Some sk, old)], [(Some sk, copy_trivia it old)]. split.
  - cbn [apply_op]. destruct m as [m|]; rewrite E; cbn [rbind]; [apply (table_set_old (Some m) c (k_key sk) it i _ M Es)|exact Es].
  - exists (firstn i (c_body c)), (skipn (S i) (c_body c)). rewrite put_body, (set_split _ _ _ _ N). split; [apply (split_at _ _ _ N)|reflexivity].
  - intros tm _ _. right. eapply (replaced_head (k_key sk) sk old it). split; [exact C|]. split; [reflexivity|]. split; [exact Po|]. split; [exact P|]. split; [exists i; auto|exact Es].
  - intros a pf b Sa. rewrite !line_text by auto using plain_copy. assert (Et : copy_trivia it old = set_trivia (item_trivia old) it).
    { unfold copy_trivia. rewrite Tr. cbn [tr_cws tr_comment default_trivia or_str]. destruct it; try destruct P; destruct (item_trivia old); reflexivity. }
    rewrite Et, St, plain_set_back by exact P. inversion Hl as [|? ? ? _ Dn Kd Nm Sp (Ti & Te & _) _|]; subst; [|destruct Po]. apply Snug.snug_text in Dn. apply Snug.snug_text in D. eapply st_value; eauto.
Qed.
Lemma gone_leaf m tops path pfx c b1 b2 d k : ok_cont c -> c_body c = b1 ++ b2 -> nbody tops path pfx b1 b2 d -> value_at c k -> own_header m -> exists c' M M', leaf m c (EDel k) c' M M'.
Proof.
  intros O B H A Ow. destruct (ok_parts c O) as (C & Pr & F). destruct (get_plain c k C A) as (i & sk & old & M & N & K & Po). subst k.
  pose proof N as N'. rewrite B in N'. destruct (plain_nline _ _ _ _ _ _ _ _ _ H N' Po) as [v0 Hl]. destruct (remove_ok c (k_key sk) (One i) C M) as (c' & R & _ & _ & _ & Bo & _). cbn [idxs fold_left] in Bo.
  exists c', [(Some sk, old)], [(None, INull)]. split; [exact R| |apply own_head, Ow|].
  - exists (firstn i (c_body c)), (skipn (S i) (c_body c)). rewrite Bo, (set_split _ _ _ _ N). split; [apply (split_at _ _ _ N)|reflexivity].
  - intros a pf b Sa. rewrite line_text by exact Po. change (btext pf false [(None, INull)]) with (@nil char). inversion Hl as [|? ? ? _ Dn Kd Nm Sp (Ti & Te & _) _|]; subst; [|destruct Po]. apply Snug.snug_text in Dn. eapply st_gone; eauto.
Qed.
Lemma new_body (m : option tmeta) tops path pfx c b1 b2 d k it : ok_cont c -> c_body c = b1 ++ b2 -> nbody tops path pfx b1 b2 d -> absent c k -> plain it -> item_trivia it = default_trivia ->
  exists c' x y ind, match m with None => set_item c k it | Some m => table_set m c k it end = Ok c' /\ Grammar.blanks ind /\ c_body c = x ++ y /\
    c_body c' = x ++ (Some (skey_of_str k), set_trivia (with_indent ind default_trivia) it) :: y.
Proof.
  intros O B H L P Tr. destruct (ok_parts c O) as (C & Pr & F). destruct (resplit _ _ _ _ _ _ H) as (u & b2' & -> & Fu & Fr & Hr). rewrite app_assoc in B. set (b0 := b1 ++ u) in *. clearbody b0.
  assert (M : map_get k (c_map c) = None). { destruct (map_get k (c_map c)) eqn:E; [|reflexivity]. exfalso. apply L, (consistent_dict c k C). congruence. }
  destruct (add_neat tops path pfx c b0 b2' d k it (PInt 0) O B Fr Hr M P) as (c1 & x & y & E & Eb & B1 & O1 & M1 & _).
  assert (Hd : set_trivia (with_indent [] default_trivia) it = it) by (change (with_indent [] default_trivia) with default_trivia; rewrite <- Tr; destruct it; try destruct P; reflexivity).
  assert (Bx : c_body c = x ++ y ++ b2') by (rewrite B, Eb, <- app_assoc; reflexivity).
  assert (No : exists c' x0 y0 ind, Ok c1 = Ok c' /\ Grammar.blanks ind /\ c_body c = x0 ++ y0 /\ c_body c' = x0 ++ (Some (skey_of_str k), set_trivia (with_indent ind default_trivia) it) :: y0).
  { exists c1, x, (y ++ b2'), []. rewrite Hd. split; [reflexivity|]. split; [constructor|]. split; assumption. }
  destruct m as [m|]; [|rewrite E; exact No]. unfold table_set. destruct (app_fuel_pos c (Some (KSingle (skey_of_str k))) it) as [n ->].
  change (contains (S (S (S n))) c k) with (match map_get k (c_map c) with
        | None => Ok false | Some (One _) => Ok true
        | Some (Many l) => match proxy (S (S n)) c l with Ok _ => Ok true | Err (NonExistentKeyE _) => Ok false | Err e => Err e end end).
  rewrite M, E. cbn [rbind]. destruct (first_spaces (tr_indent (tm_trivia m))) as [ind|] eqn:Fs; [|exact No].
  rewrite M1. assert (N1 : nth_error (c_body c1) (List.length x) = Some (Some (skey_of_str k), it)) by (rewrite B1, nth_error_app2, Nat.sub_diag by lia; reflexivity). rewrite N1.
  assert (Ei : item_indent_insert ind it = set_trivia (with_indent ind default_trivia) it). { unfold item_indent_insert. rewrite Tr. destruct it; try destruct P; cbn; rewrite app_nil_r; reflexivity. }
  rewrite Ei. eexists _, x, (y ++ b2'), ind. split; [reflexivity|]. split; [eapply spaces_blanks, Fs|]. split; [exact Bx|]. destruct c1 as [bd ? ? ? ?]. cbn [set_body c_body] in *. rewrite B1. apply set_middle.
Qed.
Lemma new_leaf m tops path pfx c b1 b2 d k v : ok_cont c -> c_body c = b1 ++ b2 -> nbody tops path pfx b1 b2 d -> absent c k -> py_fine v -> tablish v = false -> own_header m ->
  exists c' M M', leaf m c (ESet k v) c' M M' /\ leaf m c (EAdd k v) c' M M'.
Proof.
  intros O B H A Fv Tv Ow. destruct (made_item (match m with None => PkNone | Some _ => PkTable end) v Fv Tv) as (it & v' & E & P & Tr & D & Q & St). apply Snug.snug_text in D.
  destruct (new_body m tops path pfx c b1 b2 d k it O B H A P Tr) as (c' & x & y & ind & Es & Bi & B1 & B2). exists c', [], [(Some (skey_of_str k), set_trivia (with_indent ind default_trivia) it)].
  assert (Ea : apply_op m c (ESet k v) = Ok c') by (cbn [apply_op]; destruct m as [m|]; rewrite E; exact Es).
  assert (T : forall pf, btext pf false [(Some (skey_of_str k), set_trivia (with_indent ind default_trivia) it)] = ind ++ k_orig (skey_of_str k) ++ L " = " ++ item_string it ++ [10%N]).
  { intros pf. rewrite line_text by (apply plain_set_trivia, P). rewrite plain_set_back, St by exact P. reflexivity. }
  split; split; try (apply own_head, Ow); try (exists x, y; split; assumption).
  - exact Ea.
  - intros a pf b Sa. rewrite T. eapply st_new; eauto. apply skey_name.
  - rewrite add_set; [exact Ea|apply ok_parts, O|exact A].
  - intros a pf b Sa. rewrite T. eapply st_add; eauto. apply skey_name.
Qed.
Lemma void_body (m : option tmeta) c i : is_void i -> i <> INull -> exists c' ind, add_to m c None i = Ok c' /\ Grammar.blanks ind /\ (c_body c' = c_body c ++ [(None, i)] \/ c_body c' = c_body c ++ [(None, item_indent_insert ind i)]).
Proof.
  intros V Nn. assert (B1 : c_body (Lines.add_void c i) = c_body c ++ [(None, i)]) by (destruct c; reflexivity).
  destruct m as [m|]; cbn [add_to option_map]; [|rewrite void_append by assumption; exists (Lines.add_void c i), []; split; [reflexivity|]; split; [constructor|left; exact B1]].
  unfold table_add. cbn [option_map]. cbv zeta. cbn [rbind]. rewrite void_append by assumption. cbn [rbind]. destruct (first_spaces _) as [ind|] eqn:Fs; [|exists (Lines.add_void c i), []; split; [reflexivity|]; split; [constructor|left; exact B1]].
  rewrite B1, app_length. cbn [List.length]. replace (List.length (c_body c) + 1 - 1) with (List.length (c_body c)) by lia.
  assert (N1 : nth_error (c_body c ++ [(None, i)]) (List.length (c_body c)) = Some (None, i)) by (rewrite nth_error_app2, Nat.sub_diag by lia; reflexivity). rewrite N1.
  eexists _, ind. split; [reflexivity|]. split; [eapply spaces_blanks, Fs|]. right. destruct c as [bd ? ? ? ?]. cbn [Lines.add_void set_body c_body] in *. apply set_middle.
Qed.
Lemma remark_leaf m c s : own_header m -> exists c' M M', leaf m c (ERemark s) c' M M'.
Proof.
  intros Ow. destruct (void_body m c (comment_item s) I) as (c' & ind & E & Bi & [Bo|Bo]); [discriminate| |]; eexists c', [], _; (split; [exact E|exists (c_body c), []; rewrite app_nil_r; split; [reflexivity|rewrite app_nil_r; exact Bo]|apply own_head, Ow|]); intros a pf b Sa; cbn [btext flat_map].
  - pose proof (st_remark s a [] b Sa (Forall_nil _)) as X. unfold comment_item. cbn [Render.etext is_wsitem item_trivia item_string tr_indent tr_comment tr_trail app] in *. rewrite !app_nil_r. exact X.
  - pose proof (st_remark s a ind b Sa Bi) as X. unfold item_indent_insert, comment_item. cbn [Render.etext is_wsitem set_trivia item_trivia item_string with_indent tr_indent tr_comment tr_trail indent_insert take_while drop_while app]. rewrite !app_nil_r. exact X.
Qed.
Lemma newline_leaf m c : own_header m -> exists c' M M', leaf m c ENewline c' M M'.
Proof.
  intros Ow. destruct (void_body m c nl_item I) as (c' & ind & E & Bi & Bo); [discriminate|]. assert (Bo' : c_body c' = c_body c ++ [(None, nl_item)]) by (destruct Bo as [Bo|Bo]; exact Bo).
  eexists c', [], _. split; [exact E|exists (c_body c), []; rewrite app_nil_r; split; [reflexivity|rewrite app_nil_r; exact Bo']|apply own_head, Ow|]. intros a pf b Sa. exact (st_newline a b Sa).
Qed.
Lemma dress_leaf m tops path pfx c b1 b2 d k o f g : ok_cont c -> c_body c = b1 ++ b2 -> nbody tops path pfx b1 b2 d -> has_methods c k -> value_at c k -> apply_op m c o = on_item c k f ->
  (forall it, plain it -> f it = set_trivia (g (item_trivia it)) it) ->
  (forall sk it v0 a b, nline (Some sk, it) (Some ([k_key sk], v0)) -> k_key sk = k -> plain it -> starts a ->
     stroke o (a ++ (tr_indent (item_trivia it) ++ k_orig sk ++ k_sep sk ++ item_string it ++ lead (item_trivia it)) ++ b)
              (a ++ (tr_indent (g (item_trivia it)) ++ k_orig sk ++ k_sep sk ++ item_string it ++ lead (g (item_trivia it))) ++ b)) ->
  exists c' M M', leaf m c o c' M M'.
Proof.
  intros O B H Hm A Eo Hf Hs. destruct (ok_parts c O) as (C & Pr & F). destruct (get_plain c k C A) as (i & sk & old & M & N & K & Po). subst k.
  pose proof N as N'. rewrite B in N'. destruct (plain_nline _ _ _ _ _ _ _ _ _ H N' Po) as [v0 Hl].
  assert (Nb : forall bb t, old <> IVal (SBool bb) t).
  { intros bb t ->. destruct Hm as [[_ G]|[(m0 & x0 & G)|(n & l & a & b & q & G & _)]].
    - apply (G bb t). unfold get_item. rewrite M, N. reflexivity.
    - cbn [table_at] in G. rewrite M, N in G. discriminate G.
    - unfold get_item in G. rewrite M, N in G. discriminate G. }
  assert (E : on_item c (k_key sk) f = Ok (set_body (list_set i (Some sk, f old) (c_body c)) c)).
  { unfold on_item. rewrite M, N. destruct old as [ | | |[ | |bb| | | | ] t| | | | ]; try reflexivity. exfalso. eapply Nb. reflexivity. }
  eexists _, [(Some sk, old)], [(Some sk, f old)]. split; [rewrite Eo; exact E| | |].
  - exists (firstn i (c_body c)), (skipn (S i) (c_body c)). destruct c as [bd ? ? ? ?]. cbn [set_body c_body] in *. rewrite (set_split _ _ _ _ N). split; [apply (split_at _ _ _ N)|reflexivity].
  - intros tm _ _. right. apply kinds_head; [destruct c; reflexivity|destruct c; reflexivity|]. destruct c as [bd ? ? ? ?]. cbn [set_body c_body] in *. rewrite (Hf old Po). eapply kinds_set; [exact N| |]; destruct old; try destruct Po; reflexivity.
  - intros a pf b Sa. rewrite (Hf old Po). rewrite !line_text by auto using plain_set_trivia. rewrite plain_set_back by exact Po. inversion Hl as [|? ? ? _ Dn Kd Nm Sp Ti St|]; subst; [|destruct Po]. rewrite St. eapply Hs; eauto.
Qed.
Lemma note_leaf m tops path pfx c b1 b2 d k s : ok_cont c -> c_body c = b1 ++ b2 -> nbody tops path pfx b1 b2 d -> has_methods c k -> value_at c k -> exists c' M M', leaf m c (ENote k s) c' M M'.
Proof.
  intros O B H Hm A. eapply (dress_leaf m tops path pfx c b1 b2 d k _ (fun it => set_trivia (note_trivia s (item_trivia it)) it) (note_trivia s)); eauto. intros sk it v0 a b Hl <- P Sa.
  inversion Hl as [|? ? ? _ Dn Kd Nm Sp (Ti & Te & Tr) _|]; subst; [|destruct P]. apply Snug.snug_text in Dn. unfold lead. cbn [note_trivia tr_indent tr_cws tr_comment tr_trail]. rewrite (app_assoc (tr_cws _)).
  eapply st_note; eauto; [rewrite <- app_assoc; exact Te|]. destruct (startswith _ _); auto.
Qed.
Lemma indent_leaf m tops path pfx c b1 b2 d k n : ok_cont c -> c_body c = b1 ++ b2 -> nbody tops path pfx b1 b2 d -> has_methods c k -> value_at c k -> exists c' M M', leaf m c (EIndent k n) c' M M'.
Proof.
  intros O B H Hm A. eapply (dress_leaf m tops path pfx c b1 b2 d k _ (item_indent n) (indent_trivia n)); eauto; [intros it P; destruct it; try destruct P; reflexivity|]. intros sk it v0 a b Hl <- P Sa.
  inversion Hl as [|? ? ? _ Dn Kd Nm Sp (Ti & Te & Tr) _|]; subst; [|destruct P]. apply Snug.snug_text in Dn. replace (tr_indent (indent_trivia n (item_trivia it))) with (repeat 32%N n).
  2:{ unfold indent_trivia. cbn [with_indent tr_indent]. destruct (tr_indent (item_trivia it)) as [|x r]; [reflexivity|]. inversion Ti as [|? ? Hx _]; subst. cbn [startswith]. destruct Hx as [->| ->]; reflexivity. }
  eapply st_indent; eauto.
Qed.
Lemma inside_leaf m tops path pfx c b1 b2 d k q o it i : ok_cont c -> c_body c = b1 ++ b2 -> nbody tops path pfx b1 b2 d -> get_item c k = Some it -> inside_at it q = Some i -> possible_inside i o -> exists c' M M', leaf m c (EInside k q o) c' M M'.
Proof.
  intros O B H Gi Ia Pi. destruct (ok_parts c O) as (C & Pr & F). pose proof (at_cell it q i o Ia Pi) as Ix.
  assert (P : plain it) by (destruct it; try destruct Ix; exact Logic.I). destruct (get_plain c k C) as (j & sk & old & M & N & K & Po); [exists it; auto|]. unfold get_item in Gi. rewrite M, N in Gi. injection Gi as ->. subst k.
  pose proof N as N'. rewrite B in N'. destruct (plain_nline _ _ _ _ _ _ _ _ _ H N' Po) as [v0 Hl]. inversion Hl as [|? ? ? _ Dn Kd Nm Sp (Ti & Te & _) St|]; subst; [|destruct Po].
  destruct (inside_ok q it v0 i o Dn Ia Pi) as (it' & v' & E & Sn' & Ch). destruct (inside_set it q o it' E Ix) as (I' & P' & T').
  eexists _, [(Some sk, it)], [(Some sk, it')]. split; [cbn [apply_op]; unfold on_value; rewrite M, N, E; reflexivity| | |].
  - exists (firstn j (c_body c)), (skipn (S j) (c_body c)). destruct c as [bd ? ? ? ?]. cbn [set_body c_body] in *. rewrite (set_split _ _ _ _ N). split; [apply (split_at _ _ _ N)|reflexivity].
  - intros tm _ _. right. apply kinds_head; [destruct c; reflexivity|destruct c; reflexivity|]. destruct c as [bd ? ? ? ?]. cbn [set_body c_body] in *. eapply kinds_set; [exact N| |]; destruct it; try destruct P; destruct it'; try destruct P'; reflexivity.
  - intros a pf b Sa. rewrite !line_text by assumption. rewrite T'. apply Snug.snug_text in Dn. apply Snug.snug_text in Sn'. eapply st_inside; eauto.
Qed.
Lemma op_leaf m tops path pfx c b1 b2 d p o : ok_cont c -> c_body c = b1 ++ b2 -> nbody tops path pfx b1 b2 d -> possible_op p (headless m) c o -> small m c o -> exists c' M M', leaf m c o c' M M'.
Proof.
  intros O B H Po Sm. destruct Po as [k v Fv Tv _|k v Fv Tv|k I1 I2|k j v n Fv Dv Fr A|k j n A Hj Hn|k v Fv Ab Fr|s Ts| |k s Hm Ts Bs|k n Hm|k q o it i G1 G2 G3]; cbn [small] in Sm.
  - destruct Sm as [_ [A|[A Ow]]]; [eapply value_leaf; eauto|]. destruct (new_leaf m _ _ _ _ _ _ _ k v O B H A Fv Tv Ow) as (c' & M & M' & L1 & _). eauto.
  - destruct Sm as [X _]. congruence.
  - destruct Sm as [A Ow]. eapply gone_leaf; eauto.
  - destruct Sm.
  - destruct Sm.
  - destruct Sm as [Tv Ow]. destruct (new_leaf m _ _ _ _ _ _ _ k v O B H Ab Fv Tv Ow) as (c' & M & M' & _ & L1). eauto.
  - apply remark_leaf, Sm.
  - apply newline_leaf, Sm.
  - eapply note_leaf; eauto.
  - eapply indent_leaf; eauto.
  - eapply inside_leaf; eauto.
Qed.
(** Where the path leads, the table is neat. *)
Lemma table_at_neat p : forall m c tops path pfx b1 b2 d m' t, ok_cont c -> c_body c = b1 ++ b2 -> nbody tops path pfx b1 b2 d -> table_at m c p = Some (m', t) ->
  exists tops' path' pfx' c1 c2 d', ok_cont t /\ c_body t = c1 ++ c2 /\ nbody tops' path' pfx' c1 c2 d'.
Proof.
  induction p as [p IH] using (induction_ltof1 _ (@List.length _)). unfold ltof in IH. intros m c tops path pfx b1 b2 d m' t O B H Ta. destruct p as [|[k|j] p]; [| |discriminate].
  - cbn [table_at] in Ta. injection Ta as <- <-. exists tops, path, pfx, b1, b2, d. auto.
  - cbn [table_at] in *. destruct (ok_parts c O) as (C & Pr & F). destruct (map_get k (c_map c)) as [[i|]|] eqn:Mk; try discriminate. destruct (get_one _ _ _ C Mk) as (sk & it & N & K & _). rewrite N in *.
    pose proof (ok_in c i _ O N) as Oi. cbn [snd] in Oi. destruct it as [ | | | | | |tc tm|l n q tr]; try discriminate.
    + destruct (k_dotted sk) eqn:Kd; [discriminate|]. pose proof N as N'. rewrite B in N'. destruct (table_place _ _ _ _ _ _ _ _ _ H N' Kd eq_refl) as (x & y & a & v & b & Eb & Ei & Ed' & Na & Nt & Re).
      destruct (open_table _ _ _ _ _ _ _ Nt) as (c1 & c2 & dd & -> & [T1 T0 T3 T4 T5 T6 T7 T8]). assert (Ot : ok_cont tc) by (inversion Oi; [assumption|discriminate]). eapply (IH p ltac:(cbn; lia)); eauto.
    + destruct p as [|[|j] p]; try discriminate. destruct (nth_error l j) as [[tc tm]|] eqn:Nj; [|discriminate]. assert (Kd : k_dotted sk = false).
      { destruct H as [tops path pfx b1 b2 ps dl H1 H2 Nd]. assert (Ib : In (Some sk, IAoT l n q tr) (b1 ++ b2)) by (rewrite <- B; eapply nth_error_In, N). apply in_app_iff in Ib as [Ib|Ib].
        - exfalso. apply in_split in Ib as (x & y & ->). destruct (nlines_cut _ _ _ _ H1) as (l1 & _ & A2). inversion A2 as [|? ? ? ? He|? names v0 ? ? ? ? He]; subst; inversion He as [|? ? ? P|]; subst. destruct P.
        - apply ntables_entry in H2. rewrite Forall_forall in H2. destruct (H2 _ Ib) as [[X _]|(s2 & E2 & Kd & _)]; [discriminate|]. injection E2 as <-. exact Kd. }
      pose proof N as N'. rewrite B in N'. destruct (table_place _ _ _ _ _ _ _ _ _ H N' Kd eq_refl) as (x & y & a & v & b & Eb & Ei & Ed' & Na & Nt & Re).
      inversion Nt as [| |? ? ? ? ? ? ? ? ds Kd' Nm Nds Ne]; subst. destruct (open_array _ _ _ _ _ _ _ _ Ne Nj) as (ds1 & dd & ds2 & c1 & c2 & -> & Lj & Ti & T7 & T8 & Rj).
      assert (Ot : ok_cont tc). { inversion Oi as [|? ? ? ? Fo|? X]; subst; [|discriminate]. rewrite Forall_forall in Fo. apply (Fo (tc, tm)). eapply nth_error_In, Nj. }
      eapply (IH p ltac:(cbn; lia)); eauto.
Qed.
Lemma one_stroke c d p o m t c' : ok_cont c -> neat c d -> table_at None c p = Some (m, t) -> possible_op p (headless m) t o -> small m t o -> edit_at None c p o = Ok c' -> stroke o (cont_string c) (cont_string c').
Proof.
  intros O (b1 & b2 & B & H) Ta Po Sm Ed. destruct (table_at_neat p None c _ _ _ _ _ _ m t O B H Ta) as (tops' & path' & pfx' & c1 & c2 & d' & Ot & Bt & Ht).
  destruct (op_leaf m _ _ _ t c1 c2 d' p o Ot Bt Ht Po Sm) as (t' & M & M' & [L1 L2 L3 L4]).
  destruct (path_text p None c [] [] None b1 b2 d o m t c' M M' O B H eq_refl Ta Ed) as [[(a & b & pf & Sa & E1 & E2)] _].
  { intros t2 Et. rewrite L1 in Et. injection Et as <-. split; [exact L2|exact L3]. }
  rewrite !cont_string_eq, E1, E2. apply L4, Sa.
Qed.
Lemma surgical_possible es : forall c, surgical c es -> possible c es.
Proof. induction es as [|[p o] es IH]; intros c H; [exact I|]. destruct H as [(m & t & T & P & _) H]. split; [exists m, t; auto|]. intros c' E. apply IH, H, E. Qed.
Lemma many_strokes es : forall c d, ok_cont c -> neat c d -> surgical c es -> exists c' d', edit_all c es = Ok c' /\ neat c' d' /\ history es d d' /\ strokes es (cont_string c) (cont_string c').
Proof.
  induction es as [|[p o] es IH]; intros c d O N S; cbn [edit_all].
  - exists c, d. split; [reflexivity|]. split; [exact N|]. split; constructor.
  - pose proof (possible_legal _ c d O N (surgical_possible _ c S)) as [L _]. destruct S as [(m & t & T & P & Sm) H]. destruct (edit_neat c d p o O N L) as (c1 & d1 & E & O1 & N1 & H1). rewrite E. cbn [rbind].
    destruct (IH c1 d1 O1 N1 (H _ E)) as (c' & d' & E' & N' & H' & K'). exists c', d'. split; [exact E'|]. split; [exact N'|]. split; [econstructor; eassumption|]. econstructor; [|exact K']. eapply one_stroke; eauto.
Qed.
