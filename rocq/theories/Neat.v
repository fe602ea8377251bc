(** Neat: documents in memory whose text is a TOML document (C43, C44). *)
From Verif Require Import Lines Base Source Utils Items Container Parser Lemmas Wf Render ContOps PyVal Grammar Denote Snug Document.
From Coq Require Import ZifyBool ZifyNat ZifyN.
Open Scope nat_scope.

Notation entry := (option skey * item)%type.
(** The rest of a line that is not the last one. *)
Definition eol (t : str) : Prop := exists b c e, t = b ++ c ++ e /\ Grammar.blanks b /\ (c = [] \/ comment c) /\ (e = [10%N] \/ e = [13; 10]%N).
Lemma eol_tail z t : eol t -> line_tail z t.
Proof. intros (b & c & e & -> & Hb & Hc & He). exists b, c, e. unfold line_end. tauto. Qed.
Lemma eol_inb t : eol t -> inb chLF t = true.
Proof. intros (b & c & e & -> & _ & _ & He). rewrite !inb_app. destruct He as [->| ->]; rewrite !orb_true_r; reflexivity. Qed.
Inductive voids : str -> Prop := vd_nil : voids [] | vd_line t w : eol t -> voids w -> voids (t ++ w).
Lemma voids_app a b : voids a -> voids b -> voids (a ++ b).
Proof. induction 1 as [|t w H _ IH]; intros Hb; [exact Hb|]. rewrite <- app_assoc. constructor; auto. Qed.
(** Trivia of a line: indentation, and the rest of the line; its end is the end of a line. *)
Definition tidy (t : trivia) : Prop := Grammar.blanks (tr_indent t) /\ eol (tr_cws t ++ tr_comment t ++ tr_trail t) /\ eol (tr_trail t).
Lemma tidy_indent a t : Grammar.blanks a -> tidy t -> tidy (with_indent a t).
Proof. intros A (_ & B & C). split; [exact A|]. split; assumption. Qed.
Lemma take_blanks f s : Grammar.blanks s -> Grammar.blanks (take_while f s).
Proof. induction 1 as [|a s H _ IH]; cbn [take_while]; [constructor|]. destruct (f a); constructor; assumption. Qed.
Lemma drop_blanks f s : Grammar.blanks s -> Grammar.blanks (drop_while f s).
Proof. induction 1 as [|a s H Hs IH]; cbn [drop_while]; [constructor|]. destruct (f a); [exact IH|constructor; assumption]. Qed.
Lemma take_all f s : Forall (fun c => f c = true) (take_while f s).
Proof. induction s as [|a s IH]; cbn [take_while]; [constructor|]. destruct (f a) eqn:E; constructor; assumption. Qed.
Lemma spaces_blanks s r : first_spaces s = Some r -> Grammar.blanks r.
Proof.
  intros H. unfold first_spaces in H. pose proof (take_all (fun c => (c =? chSP)%N) (drop_while (fun c => negb (c =? chSP)%N) s)) as X. destruct (take_while _ _); [discriminate|]. injection H as <-.
  eapply Forall_impl; [|exact X]. cbn beta. intros a Ha. apply N.eqb_eq in Ha. left. exact Ha.
Qed.
Lemma insert_blanks a s : Grammar.blanks a -> Grammar.blanks s -> Grammar.blanks (indent_insert a s).
Proof. intros A B. unfold indent_insert. apply Forall_app. split; [apply take_blanks, B|]. apply Forall_app. split; [exact A|apply drop_blanks, B]. Qed.
(** Trivia of a header: the same, perhaps below empty lines. *)
Definition gap_c (c : char) : Prop := c = 10%N \/ blank_c c.
Definition tidyh (t : trivia) : Prop := Forall gap_c (tr_indent t) /\ eol (tr_cws t ++ tr_comment t ++ tr_trail t) /\ eol (tr_trail t).
Lemma tidy_head t : tidy t -> tidyh t.
Proof. intros (A & B & C). split; [|split; assumption]. eapply Forall_impl; [|exact A]. intros c H. right. exact H. Qed.
Lemma take_forall (P : char -> Prop) f s : Forall P s -> Forall P (take_while f s).
Proof. induction 1 as [|a s H _ IH]; cbn [take_while]; [constructor|]. destruct (f a); constructor; assumption. Qed.
Lemma drop_forall (P : char -> Prop) f s : Forall P s -> Forall P (drop_while f s).
Proof. induction 1 as [|a s H Hs IH]; cbn [drop_while]; [constructor|]. destruct (f a); [exact IH|constructor; assumption]. Qed.
Lemma tidyh_insert a t : Grammar.blanks a -> tidyh t -> tidyh (with_indent (indent_insert a (tr_indent t)) t).
Proof.
  intros A (E & R). split; [|exact R]. cbn [with_indent tr_indent]. unfold indent_insert. apply Forall_app. split; [apply take_forall, E|]. apply Forall_app. split; [|apply drop_forall, E].
  eapply Forall_impl; [|exact A]. intros c H. right. exact H.
Qed.
(** Empty lines, then blanks. *)
Lemma gap_split i : Forall gap_c i -> exists u b, i = u ++ b /\ voids u /\ Grammar.blanks b.
Proof.
  induction 1 as [|c i [->|Hc] _ (u & b & -> & U & B)]; [exists [], []; split; [reflexivity|]; split; constructor| |].
  - exists (10%N :: u), b. split; [reflexivity|]. split; [|exact B]. apply (vd_line [10%N] u); [|exact U]. exists [], [], [10%N]. split; [reflexivity|]. split; [constructor|]. split; left; reflexivity.
  - destruct U as [|t u T U].
    + exists [], (c :: b). split; [reflexivity|]. split; [constructor|]. constructor; assumption.
    + exists ((c :: t) ++ u), b. split; [reflexivity|]. split; [|exact B]. constructor; [|exact U]. destruct T as (x & y & e & -> & X & Y). exists (c :: x), y, e. split; [reflexivity|]. split; [constructor; assumption|exact Y].
Qed.
Lemma lines_voids u : Forall (fun c => c = 10%N) u -> voids u.
Proof. induction 1 as [|a u -> _ IH]; [constructor|]. apply (vd_line [10%N] u); [|exact IH]. exists [], [], [10%N]. split; [reflexivity|]. split; [constructor|]. split; [left; reflexivity|left; reflexivity]. Qed.
Definition lead (t : trivia) : str := tr_cws t ++ tr_comment t ++ tr_trail t.

(** * Lines *)
Definition is_void (i : item) : Prop := match i with IWs _ _ | IComment _ | INull => True | _ => False end.
Definition line_closed (i : item) : Prop := match i with IComment t => inb chLF (tr_trail t) = true | _ => True end.
(** The text of the value does not depend on its trivia. *)
Definition steady (i : item) : Prop := forall t, item_string (set_trivia t i) = item_string i.
(** The line of an entry: nothing, or "names = v". *)
Inductive nline : entry -> option (list str * pyv) -> Prop :=
  | nl_void i : is_void i -> voids (item_string i) -> line_closed i -> nline (None, i) None
  | nl_plain sk it v : plain it -> snug it v -> k_dotted sk = false -> name_means (k_orig sk) (k_key sk) -> sep_text (k_sep sk) -> tidy (item_trivia it) -> steady it ->
      nline (Some sk, it) (Some ([k_key sk], v))
  | nl_dotted sk c m ns v a k s w t : k_dotted sk = true -> inb chLF (tr_trail (tm_trivia m)) = true -> tr_indent (tm_trivia m) <> [10%N] -> table_is_super c m = true -> ns <> [] ->
      etext None false (Some sk, ITable c m) = a ++ k ++ s ++ w ++ t -> (forall pfx, etext pfx false (Some sk, ITable c m) = etext None false (Some sk, ITable c m)) ->
      Grammar.blanks a -> key_means k (k_key sk :: ns) -> sep_text s -> denotes w v -> eol t -> dent (k_key sk :: ns) v sk (ITable c m) -> nline (Some sk, ITable c m) (Some (k_key sk :: ns, v)).
Inductive nlines : list (str * node) -> list entry -> list (str * node) -> Prop :=
  | ns_nil l : nlines l [] l
  | ns_void e es l l2 : nline e None -> nlines l es l2 -> nlines l (e :: es) l2
  | ns_pair e names v es l l1 l2 : nline e (Some (names, v)) -> put names v l l1 -> nlines l1 es l2 -> nlines l (e :: es) l2.
Lemma nlines_app l es l1 es' l2 : nlines l es l1 -> nlines l1 es' l2 -> nlines l (es ++ es') l2.
Proof. induction 1 as [l|e es l l1 H _ IH|e names v es l la lb H P _ IH]; intros H2; [exact H2|eapply ns_void; eauto|eapply ns_pair; eauto]. Qed.
Lemma nlines_cut l es es' l2 : nlines l (es ++ es') l2 -> exists l1, nlines l es l1 /\ nlines l1 es' l2.
Proof.
  revert l. induction es as [|e es IH]; intros l H; cbn [app] in H; [exists l; split; [constructor|exact H]|].
  inversion H as [|? ? ? ? H1 H2|? names v ? ? l1 ? H1 P H2]; subst; destruct (IH _ H2) as (l3 & A & B); exists l3; (split; [|exact B]); [eapply ns_void; eauto|eapply ns_pair; eauto].
Qed.

(** * Tables *)
(** [pfx] is the text before the names in a header of a table at [path]. *)
Definition pmeans (path : list str) (pfx : option str) : Prop := match pfx with None => path = [] | Some p => key_means p path end.
Lemma key_means_snoc path pfx w k : pmeans path pfx -> name_means w k -> key_means (prefixed pfx w) (path ++ [k]).
Proof.
  intros H N. destruct pfx as [p|]; cbn [pmeans prefixed] in *; [|subst path; apply km_one, N]. induction H as [a m Ha|a m r l Ha Hr IH].
  - apply (km_dot a m w [k]); [exact Ha|apply km_one, N].
  - rewrite <- !app_assoc. apply (km_dot a m (r ++ [chDOT] ++ w) (l ++ [k])); assumption.
Qed.
(** An entry without a key: blank space, a comment or nothing. *)
Definition void_entry (e : entry) : Prop := fst e = None /\ is_void (snd e) /\ line_closed (snd e).
(** One behind which no new entry goes. *)
Definition skip (e : entry) : Prop := fst e = None /\ match snd e with IWs _ false | INull => True | _ => False end.
(** The entry is a plain value or has no key. *)
Definition bare_entry (e : entry) : Prop := void_entry e \/ (fst e <> None /\ plain (snd e)).
Definition shown (c : container) (m : tmeta) : bool := negb (table_is_super c m) || has_plain (c_body c).
(** What a table that may be written without a header satisfies. *)
Definition headless_ok (tops : list str) (k : str) (m : tmeta) (b1 b2 : list entry) : Prop :=
  tm_super m <> Some false -> ~ In k tops /\ Forall bare_entry b1 /\ (tm_super m = Some true -> exists e, In e (b1 ++ b2) /\ fst e <> None).
Inductive nbody : list str -> list str -> option str -> list entry -> list entry -> list (str * pyv) -> Prop :=
  | nb tops path pfx b1 b2 ps l : nlines [] b1 ps -> ntables tops path pfx b2 l -> NoDup (map fst (dict_of ps ++ l)) -> nbody tops path pfx b1 b2 (dict_of ps ++ l)
with ntables : list str -> list str -> option str -> list entry -> list (str * pyv) -> Prop :=
  | nt_nil tops path pfx : ntables tops path pfx [] []
  | nt_skip tops path pfx e es l : void_entry e -> voids (item_string (snd e)) -> ntables tops path pfx es l -> ntables tops path pfx (e :: es) l
  | nt_cons tops path pfx sk it v es l : ntable tops path pfx sk it v -> ntables tops path pfx es l -> ntables tops path pfx ((Some sk, it) :: es) ((k_key sk, v) :: l)
with ntable : list str -> list str -> option str -> skey -> item -> pyv -> Prop :=
  | nt_shown tops path pfx sk c m b1 b2 d : k_dotted sk = false -> name_means (k_orig sk) (k_key sk) -> tm_aot m = false -> shown c m = true -> tidyh (tm_trivia m) ->
      key_means (table_key m sk pfx) (path ++ [k_key sk]) -> headless_ok tops (k_key sk) m b1 b2 ->
      c_body c = b1 ++ b2 -> nbody tops (path ++ [k_key sk]) (Some (table_key m sk pfx)) b1 b2 d -> ntable tops path pfx sk (ITable c m) (PDict d)
  | nt_hidden tops path pfx sk c m l : k_dotted sk = false -> name_means (k_orig sk) (k_key sk) -> tm_aot m = false -> table_is_super c m = true -> has_plain (c_body c) = false -> tidyh (tm_trivia m) ->
      key_means (table_key m sk pfx) (path ++ [k_key sk]) -> ~ In (k_key sk) tops ->
      ntables tops (path ++ [k_key sk]) (Some (table_key m sk pfx)) (c_body c) l -> l <> [] -> NoDup (map fst l) -> ntable tops path pfx sk (ITable c m) (PDict l)
  | nt_aot tops path pfx sk L n p t ds : k_dotted sk = false -> name_means (k_orig sk) (k_key sk) -> ds <> [] ->
      nelems (match path with [] => k_key sk :: tops | _ => tops end) (path ++ [k_key sk]) (prefixed pfx (k_orig sk)) L ds -> ntable tops path pfx sk (IAoT L n p t) (PList (map PDict ds))
with nelems : list str -> list str -> str -> list (container * tmeta) -> list (list (str * pyv)) -> Prop :=
  | ne_nil tops path key : nelems tops path key [] []
  | ne_cons tops path key c m L b1 b2 d ds : tidyh (tm_trivia m) -> key_means key path -> c_body c = b1 ++ b2 -> nbody tops path (Some key) b1 b2 d -> nelems tops path key L ds -> nelems tops path key ((c, m) :: L) (d :: ds).
Scheme nbody_mut := Minimality for nbody Sort Prop
  with ntables_mut := Minimality for ntables Sort Prop
  with ntable_mut := Minimality for ntable Sort Prop
  with nelems_mut := Minimality for nelems Sort Prop.
Combined Scheme neat_mut from nbody_mut, ntables_mut, ntable_mut, nelems_mut.
Lemma nt_null tops path pfx es l : ntables tops path pfx es l -> ntables tops path pfx ((None, INull) :: es) l.
Proof. apply nt_skip; [repeat split|constructor]. Qed.
Lemma ntables_app tops path pfx a l b l' : ntables tops path pfx a l -> ntables tops path pfx b l' -> ntables tops path pfx (a ++ b) (l ++ l').
Proof. induction 1; intros H2; cbn [app]; [exact H2|apply nt_skip; auto|apply nt_cons; auto]. Qed.
Lemma ntable_name tops path pfx sk it v x : ntable tops path pfx sk it v -> ntable tops path pfx sk (set_name x it) v.
Proof.
  intros H. destruct H as [tops path pfx sk c m b1 b2 d H1 H2 H3 H4 H5 H6 H7 H8 H9|tops path pfx sk c m l H1 H2 H3 H4 H5 H6 H7 H8 H9 H10|tops path pfx sk L n p t ds H1 H2 H3]; cbn [set_name].
  - destruct (tm_name m) eqn:E; [eapply nt_shown; eauto|]. destruct m as [tr ao su nm di]. eapply nt_shown; eauto.
  - destruct (tm_name m) eqn:E; [eapply nt_hidden; eauto|]. destruct m as [tr ao su nm di]. eapply nt_hidden; eauto.
  - destruct n; apply nt_aot; assumption.
Qed.
Lemma ntable_indent tops path pfx sk it v ind : Grammar.blanks ind -> ntable tops path pfx sk it v -> ntable tops path pfx sk (item_indent_insert ind it) v.
Proof.
  intros Hi H. destruct H as [tops path pfx sk c m b1 b2 d H1 H2 H3 H4 H5 H6 H7 H8 H9|tops path pfx sk c m l H1 H2 H3 H4 H5 H6 H7 H8 H9 H10|tops path pfx sk L n p t ds H1 H2 H3]; unfold item_indent_insert; cbn [is_wsitem set_trivia item_trivia].
  - destruct m as [tr ao su nm di]. eapply nt_shown; eauto. apply tidyh_insert; assumption.
  - destruct m as [tr ao su nm di]. eapply nt_hidden; eauto. apply tidyh_insert; assumption.
  - apply nt_aot; assumption.
Qed.
(** The container [c] is written as the document [d]. *)
Definition neat (c : container) (d : list (str * pyv)) : Prop := exists b1 b2, c_body c = b1 ++ b2 /\ nbody [] [] None b1 b2 d.

(** * The text of a neat document *)
Lemma voids_lines z w u l l2 : voids u -> pair_lines z l w l2 -> pair_lines z l (u ++ w) l2.
Proof. induction 1 as [|t u H _ IH]; intros P; [exact P|]. rewrite <- app_assoc. apply pl_void; [apply eol_tail, H|auto]. Qed.
Lemma nlines_text l es l2 : nlines l es l2 -> forall pfx z, pair_lines z l (btext pfx false es) l2.
Proof.
  induction 1 as [l|e es l l2 He _ IH|e names v es l l1 l2 He Hp _ IH]; intros pfx z; [constructor| |]; change (btext pfx false (e :: es)) with (etext pfx false e ++ btext pfx false es).
  - inversion He as [i Hi V Hc| |]; subst. cbn [etext]. apply voids_lines; auto.
  - inversion He as [|sk it v0 P D Kd N Sp (Ti & Te & _)|sk c m ns v0 a k s w t Kd Tr Ti0 Su0 Ne Et Ep Ha Hk Hs D Ht Dn]; subst.
    + assert (X : etext pfx false (Some sk, it) = (tr_indent (item_trivia it) ++ k_orig sk ++ k_sep sk ++ item_string it ++ lead (item_trivia it))) by (destruct it; try destruct P; reflexivity).
      rewrite X. apply snug_text in D. eapply pl_pair; eauto using eol_tail. apply km_one, N.
    + rewrite Ep, Et. eapply pl_pair; eauto using eol_tail.
Qed.
Lemma head_text tr op k cl : Items.header op k cl tr = tr_indent tr ++ (op ++ k ++ cl) ++ lead tr.
Proof. unfold Items.header, lead. rewrite <- !app_assoc. reflexivity. Qed.
(** Blank lines below a table belong to it. *)
Lemma lines_absorb z u l w l2 : pair_lines (u ++ z) l w l2 -> voids u -> pair_lines z l (w ++ u) l2.
Proof.
  intros H Hu. induction H as [l|t w l l2 Ht _ IH|a k names s v x t w l l1 l2 Ha Hk Hs Hd Hp Ht _ IH].
  - cbn [app]. rewrite <- (app_nil_r u). apply voids_lines; [exact Hu|constructor].
  - rewrite <- app_assoc. apply pl_void; [rewrite <- app_assoc; exact Ht|exact IH].
  - rewrite <- app_assoc. eapply pl_pair; eauto. rewrite <- app_assoc. exact Ht.
Qed.
Lemma absorb_mut :
  (forall tops path z w d, body tops path z w d -> forall u z', z = u ++ z' -> voids u -> body tops path z' (w ++ u) d) /\
  (forall tops path z w l, tables tops path z w l -> forall u z', z = u ++ z' -> voids u -> l <> [] -> tables tops path z' (w ++ u) l) /\
  (forall tops path z k w v, table tops path z k w v -> forall u z', z = u ++ z' -> voids u -> table tops path z' k (w ++ u) v) /\
  (forall tops path z w ds, array_elements tops path z w ds -> forall u z', z = u ++ z' -> voids u -> ds <> [] -> array_elements tops path z' (w ++ u) ds).
Proof.
  apply document_mut.
  - intros tops path z x ps w l Hp Ht IH Nd u z' -> Hu. destruct l as [|kv l].
    + inversion Ht; subst. cbn [app] in Hp. rewrite app_nil_r. apply lines_absorb in Hp; [|exact Hu]. pose proof (bd tops path z' (x ++ u) ps [] []) as X. rewrite !app_nil_r in *. apply X; [exact Hp|constructor|exact Nd].
    + rewrite <- app_assoc. constructor; [rewrite <- app_assoc; exact Hp|apply IH; [reflexivity|exact Hu|discriminate]|exact Nd].
  - intros. contradiction.
  - intros tops path z k v x w l H IH Ht IH2 u z' -> Hu _. destruct l as [|kv l].
    + inversion Ht; subst. rewrite app_nil_r. cbn [app] in *. rewrite <- (app_nil_r (x ++ u)). constructor; [apply IH; [reflexivity|exact Hu]|constructor].
    + rewrite <- app_assoc. constructor; [rewrite <- app_assoc; exact H|apply IH2; [reflexivity|exact Hu|discriminate]].
  - intros tops path z k h w d Hh Hb IH u z' -> Hu. rewrite <- app_assoc. constructor; [rewrite <- app_assoc; exact Hh|apply IH; [reflexivity|exact Hu]].
  - intros tops path z k w l Nt Ht IH Ne Nd u z' -> Hu. apply tb_implicit; auto.
  - intros tops path z k w ds He IH Ne u z' -> Hu. apply tb_array; auto.
  - intros. contradiction.
  - intros tops path z h x d w ds Hh Hb IH He IH2 u z' -> Hu _. destruct ds as [|d2 ds].
    + inversion He; subst. rewrite app_nil_r. cbn [app] in *. rewrite <- app_assoc. rewrite <- (app_nil_r (x ++ u)). constructor; [cbn [app]; rewrite <- app_assoc; exact Hh|apply IH; [reflexivity|exact Hu]|constructor].
    + rewrite <- !app_assoc. constructor; [rewrite <- app_assoc; exact Hh|rewrite <- app_assoc; exact Hb|apply IH2; [reflexivity|exact Hu|discriminate]].
Qed.
Lemma skip_text pfx e : void_entry e -> etext pfx false e = item_string (snd e).
Proof. intros [H _]. destruct e as [k i]. cbn [fst] in H. subst k. reflexivity. Qed.
Lemma ntables_text_mut :
  (forall tops path pfx b1 b2 d, nbody tops path pfx b1 b2 d -> forall z, body tops path z (btext pfx false (b1 ++ b2)) d) /\
  (forall tops path pfx es l, ntables tops path pfx es l -> exists u w, btext pfx false es = u ++ w /\ voids u /\ forall z, tables tops path z w l) /\
  (forall tops path pfx sk it v, ntable tops path pfx sk it v -> exists u w, etext pfx false (Some sk, it) = u ++ w /\ voids u /\ forall z, table tops path z (k_key sk) w v) /\
  (forall tops path key L ds, nelems tops path key L ds -> exists u w, flat_map (fun p => render_aot_table (fst p) (snd p) key) L = u ++ w /\ voids u /\ forall z, array_elements tops path z w ds).
Proof.
  apply neat_mut.
  - intros tops path pfx b1 b2 ps l H _ (u & w & E & Hu & Ht) Nd z. rewrite btext_app, E, app_assoc. constructor; [|apply Ht|exact Nd]. apply lines_absorb; [|exact Hu]. apply nlines_text, H.
  - intros. exists [], []. split; [reflexivity|]. split; [constructor|]. intros z. constructor.
  - intros tops path pfx e es l Sk Hv _ (u & w & E & Hu & Ht). exists (item_string (snd e) ++ u), w. change (btext pfx false (e :: es)) with (etext pfx false e ++ btext pfx false es).
    rewrite skip_text, E, app_assoc by exact Sk. split; [reflexivity|]. split; [apply voids_app; assumption|exact Ht].
  - intros tops path pfx sk it v es l _ (u1 & w1 & E1 & V1 & T1) _ (u2 & w2 & E2 & V2 & T2). change (btext pfx false ((Some sk, it) :: es)) with (etext pfx false (Some sk, it) ++ btext pfx false es).
    exists u1, ((w1 ++ u2) ++ w2). rewrite E1, E2, <- !app_assoc. split; [reflexivity|]. split; [exact V1|]. intros z. rewrite app_assoc. constructor; [|apply T2]. eapply (proj1 (proj2 (proj2 absorb_mut))); [apply T1|reflexivity|exact V2].
  - intros tops path pfx sk c m b1 b2 d Kd Nm Ta Sh (Gi & Te & Tn) Hk _ Eb _ IH. apply eol_inb in Tn. destruct (gap_split _ Gi) as (u & b & Ei & U & Bl). cbn [etext]. rewrite Kd, !andb_false_r. cbn [andb]. rewrite render_table_eq, Kd, Eb.
    unfold table_head. rewrite Kd, Ta, Tn. cbn [negb andb]. rewrite andb_true_r, app_nil_r. unfold shown in Sh. rewrite Sh.
    rewrite head_text, Ei, <- !app_assoc. eexists u, _. split; [reflexivity|]. split; [exact U|]. intros z.
    match goal with |- table _ _ _ _ ?x _ => replace x with ((b ++ ([chLBR] ++ table_key m sk pfx ++ [chRBR]) ++ lead (tm_trivia m)) ++ btext (Some (table_key m sk pfx)) false (b1 ++ b2)) by (rewrite <- !app_assoc; reflexivity) end.
    apply tb_table; [|apply IH]. eexists _, _, _. split; [exact Bl|]. split; [exact Hk|]. split; [apply eol_tail, Te|]. reflexivity.
  - intros tops path pfx sk c m l Kd Nm Ta Su Hp _ Hk Nt _ (u & w & E & V & T) Ne Nd. cbn [etext]. rewrite Kd, !andb_false_r. cbn [andb]. rewrite render_table_eq, Kd, E.
    unfold table_head. rewrite Su, Hp. cbn [negb orb andb]. eexists (_ ++ u), w. rewrite <- app_assoc. split; [reflexivity|]. split; [|intros z; apply tb_implicit; auto].
    apply voids_app; [|exact V]. destruct (str_eqb (tr_indent (tm_trivia m)) [chLF]) eqn:Ei; [|constructor]. apply str_eqb_eq in Ei. rewrite Ei. apply lines_voids. repeat constructor.
  - intros tops path pfx sk L n p t ds Kd Nm Ne _ (u & w & E & V & T). cbn [etext]. exists u, w. split; [exact E|]. split; [exact V|]. intros z. apply tb_array; auto.
  - intros. exists [], []. split; [reflexivity|]. split; [constructor|]. intros z. constructor.
  - intros tops path key c m L b1 b2 d ds (Gi & Te & Tn) Hk Eb Hb IH _ (u2 & w2 & E2 & V2 & T2). destruct (gap_split _ Gi) as (u & b & Ei & U & Bl). cbn [flat_map fst snd]. rewrite render_aot_eq, head_text, Eb, Ei, E2.
    exists u, ((b ++ ([chLBR; chLBR] ++ key ++ [chRBR; chRBR]) ++ lead (tm_trivia m)) ++ (btext (Some key) false (b1 ++ b2) ++ u2) ++ w2). split; [rewrite <- !app_assoc; reflexivity|]. split; [exact U|]. intros z. apply ae_cons; [| |apply T2].
    + eexists _, _, _. split; [exact Bl|]. split; [exact Hk|split; [apply eol_tail, Te|reflexivity]].
    + eapply (proj1 absorb_mut); [apply IH|reflexivity|exact V2].
Qed.
Theorem neat_text c d : neat c d -> document_means (cont_string c) d.
Proof. intros (b1 & b2 & E & H). rewrite cont_string_eq, E. apply (proj1 ntables_text_mut), H. Qed.
