(** Errors: which exceptions parsing can raise, and where they point (C03, C04). *)
From Verif Require Import Base Source Utils Items Container Arrays Parser Lemmas Escape Strings StringRT StringApi Numbers Reader Linecol Wf.
From Coq Require Import ZifyBool ZifyNat ZifyN.
Open Scope nat_scope.

(** [a] is empty or ends with a line break character (LF or CR). *)
Definition line_start (a : str) : Prop := a = [] \/ exists b c, a = b ++ [c] /\ is_nl c = true.
Definition blank (w : str) : Prop := Forall (fun c => is_blank c = true) w.

(** Conditions on a text. *)
(** No line starts with blanks containing a space, then a bracket. *)
Definition no_indented_bracket (s : str) : Prop :=
  forall a w b, s = a ++ w ++ chLBR :: b -> line_start a -> blank w -> ~ In chSP w.
(** No line starts with blanks, then two brackets. *)
Definition no_double_bracket (s : str) : Prop :=
  forall a w b, s = a ++ w ++ chLBR :: chLBR :: b -> line_start a -> blank w -> False.
(** No run of ten ASCII digits. *)
Definition no_long_number (s : str) : Prop :=
  forall a d b, s = a ++ d ++ b -> Forall (fun c => is_ascii_digit c = true) d -> List.length d <= 9.

(** ** Positions at the beginning of a line *)
Definition bol (st : pst) : Prop := line_start (p_pre st).
(** At the opening bracket of a header; the marker is at the start of the line. *)
Definition header_pos (st : pst) : Prop :=
  exists a w r, p_pre st = a ++ w /\ p_rest st = chLBR :: r /\ line_start a /\ blank w /\ p_mark st = List.length a.
Definition lineend (st : pst) : Prop := at_end st = true \/ bol st.
Definition nextp (st : pst) : Prop := at_end st = true \/ header_pos st.

Lemma line_start_snoc a c : is_nl c = true -> line_start (a ++ [c]).
Proof. intros H. right. exists a, c. auto. Qed.
Lemma at_end_rest st : at_end st = true <-> p_rest st = [].
Proof. unfold at_end. destruct (p_rest st); split; congruence. Qed.
Lemma trail_line st t st' :
  (match p_rest st with [] => True | c :: _ => is_nl c = true end) -> parse_trail st = (Ok t, st') -> lineend st'.
Proof.
  intros H E. unfold parse_trail in E. apply bind_inv in E as (u & st1 & E1 & E). unfold adv_whileM in E1. inversion E1; subst st1; clear E1.
  assert (Ea : adv_while is_spaces st = st).
  { destruct st as [pre [|c r] mk]; unfold adv_while; cbn [p_pre p_rest p_mark take_while drop_while]; [rewrite app_nil_r; reflexivity|].
    cbn [p_rest] in H. assert (X : is_spaces c = false) by (unfold is_spaces; unfold is_nl in H; apply orb_true_iff in H as [H|H];
      apply N.eqb_eq in H; subst; reflexivity). rewrite X, app_nil_r. reflexivity. }
  rewrite Ea in E. clear Ea. destruct st as [pre [|c r] mk].
  - left. cbn in E. inversion E; subst. reflexivity.
  - cbn [p_rest] in H. unfold is_nl in H. right.
    destruct (N.eqb_spec c chCR) as [->|Hc].
    + destruct r as [|d r]; [cbn in E; inversion E; subst; cbn; unfold bol; cbn; apply line_start_snoc; reflexivity|].
      apply bind_inv in E as (c0 & st1 & E1 & E). inversion E1; subst; clear E1. cbn [cur p_rest] in E. 
      apply bind_inv in E as (b & st1 & E1 & E). cbn in E1. inversion E1; subst; clear E1.
      apply bind_inv in E as (c0 & st1 & E1 & E). inversion E1; subst; clear E1. cbn [cur p_rest] in E.
      apply bind_inv in E as (b & st1 & E1 & E). inversion E; subst; clear E.
      destruct (N.eqb_spec d chLF) as [->|Hd]; cbn in E1; inversion E1; subst; unfold bol; cbn; apply line_start_snoc; reflexivity.
    + rewrite orb_false_r in H. apply N.eqb_eq in H. subst.
      destruct r as [|d r]; cbn in E; inversion E; subst; unfold bol; cbn; apply line_start_snoc; reflexivity.
Qed.
Lemma comment_trail_line st r st' : parse_comment_trail true st = (Ok r, st') -> lineend st'.
Proof.
  intros E. unfold parse_comment_trail in E. apply bind_inv in E as (e & st1 & E1 & E). unfold endM in E1. inversion E1; subst; clear E1.
  destruct (at_end st1) eqn:Ee; [inversion E; subst; left; exact Ee|].
  apply bind_inv in E as (u & st2 & _ & E). apply bind_inv in E as (u2 & st3 & E3 & E).
  apply bind_inv in E as (e & st4 & E4 & E). inversion E4; subst; clear E4.
  apply bind_inv in E as (c & st5 & E5 & E). inversion E5; subst; clear E5.
  apply bind_inv in E as ([cws cm] & st6 & E6 & E). apply bind_inv in E as (tr & st7 & E7 & E). inversion E; subst; clear E.
  eapply trail_line; [|exact E7]. clear E7.
  destruct (at_end st5 || (cur st5 =? chLF)%N)%bool eqn:Ea.
  - inversion E6; subst. apply orb_true_iff in Ea as [Ea|Ea].
    + apply at_end_rest in Ea. rewrite Ea. exact I.
    + unfold cur in Ea. destruct (p_rest st6); [exact I|]. unfold is_nl. rewrite Ea. reflexivity.
  - destruct (cur st5 =? chHASH)%N; [|discriminate].
    apply bind_inv in E6 as (? & ? & _ & E6). apply bind_inv in E6 as (? & ? & _ & E6). apply bind_inv in E6 as (? & ? & _ & E6).
    apply bind_inv in E6 as (? & ? & _ & E6). apply bind_inv in E6 as (e & st8 & X & E6). inversion X; subst; clear X.
    apply bind_inv in E6 as (c & st9 & X & E6). inversion X; subst; clear X.
    apply bind_inv in E6 as (? & st10 & X & E6). destruct (at_end st9 || is_nl (cur st9))%bool eqn:Eb; [|discriminate].
    inversion X; subst; clear X. apply bind_inv in E6 as (? & st11 & X & E6). inversion X; subst; clear X.
    apply bind_inv in E6 as (? & st12 & X & E6). inversion X; subst; clear X. inversion E6; subst; clear E6. cbn [set_mark p_rest].
    apply orb_true_iff in Eb as [Eb|Eb]; [apply at_end_rest in Eb; rewrite Eb; exact I|].
    unfold cur in Eb. destruct (p_rest st11); [exact I|exact Eb].
Qed.
Lemma kv_line sb pv n st r st' : key_value_with sb pv n true st = (Ok r, st') -> lineend st'.
Proof.
  intros E. unfold key_value_with in E.
  do 6 (apply bind_inv in E as (? & ? & _ & E)). cbv zeta in E. apply bind_inv in E as (? & ? & X & E). inversion E; subst; clear E.
  apply bind_inv in X as ([[cws cm] tr] & st1 & E1 & X). apply comment_trail_line in E1.
  apply bind_inv in X as (? & st2 & E2 & X). inversion X; subst; clear X. unfold lossy_if in E2. destruct (_ && _); [discriminate|].
  inversion E2; subst. exact E1.
Qed.
Definition item_post (r : option (option key * item)) (st : pst) : Prop :=
  match r with Some _ => lineend st | None => header_pos st end.
Lemma item_line sb n st r st' : bol st -> parse_item sb n st = (Ok r, st') -> item_post r st'.
Proof.
  intros Hb E. unfold parse_item in E. destruct (restore_on_err item_head st) as [[h|e] st1] eqn:Eh; [|discriminate].
  unfold restore_on_err in Eh. destruct (item_head st) as [[h0|e0] st0] eqn:E0; [|discriminate]. inversion Eh; subst h0 st0; clear Eh.
  assert (Hh : match h with HItem _ => lineend st1 | HTable => header_pos st1 | HKeyValue => True end).
  { unfold item_head in E0. apply bind_inv in E0 as (? & st2 & X & E0). inversion X; subst; clear X.
    apply bind_inv in E0 as (? & st3 & X & E0). inversion X; subst; clear X.
    apply bind_inv in E0 as (e & st4 & X & E0). inversion X; subst; clear X.
    apply bind_inv in E0 as (ws & st5 & X & E0). inversion X; subst; clear X.
    apply bind_inv in E0 as (c & st6 & X & E0). inversion X; subst; clear X.
    set (st2 := adv_while is_blank (set_mark st)) in *.
    destruct (at_end st2 && nonempty (extract st2)) eqn:E1.
    { inversion E0; subst. left. apply andb_true_iff in E1. apply E1. }
    destruct (N.eqb_spec (cur st2) chLF) as [Ec|Ec].
    { apply bind_inv in E0 as (b & st3 & X & E0). apply bind_inv in E0 as (w & st4 & Y & E0). inversion Y; subst; clear Y. inversion E0; subst; clear E0.
      right. unfold bol. unfold cur in Ec. destruct st2 as [pre [|d r0] mk] eqn:E2; [discriminate|]. cbn in Ec. subst d.
      unfold incM, inc in X. cbn in X. inversion X; subst. cbn. apply line_start_snoc. reflexivity. }
    destruct (N.eqb_spec (cur st2) chHASH) as [Eh|Eh].
    { apply bind_inv in E0 as ([[cws cm] tr] & st3 & X & E0). inversion E0; subst. eapply comment_trail_line; eauto. }
    destruct (N.eqb_spec (cur st2) chLBR) as [El|El]; inversion E0; subst; [|exact I].
    unfold header_pos. unfold cur in El. subst st2. cbn [adv_while p_pre p_rest p_mark set_mark] in *.
    destruct (drop_while is_blank (p_rest st)) as [|d r0] eqn:Ed; [discriminate|]. cbn in El. subst d.
    exists (p_pre st), (take_while is_blank (p_rest st)), r0. repeat split; auto. apply take_while_all. }
  destruct h as [i| |].
  - inversion E; subst. exact Hh.
  - inversion E; subst. exact Hh.
  - apply bind_inv in E as (kv & st2 & E1 & E). inversion E; subst; clear E. cbn. unfold parse_key_value in E1. eapply kv_line; eauto.
Qed.

Section Errors.
Variables (s : str) (nosp noaot short strict : bool) (deep : bool).
Hypothesis Hnosp : nosp = true -> no_indented_bracket s.
Hypothesis Hnoaot : noaot = true -> no_double_bracket s.
Hypothesis Hshort : short = true -> no_long_number s.

Definition perr (e : exn) : Prop :=
  match e with
  | ParseErr k l c => exists i, i <= List.length s /\ (l, c) = to_linecol s i
  | OverflowErrorE => short = false
  | e => okerr nosp noaot strict e
  end.

Definition tri {A} (m : M A) (P : pst -> Prop) (Q : A -> pst -> Prop) : Prop :=
  forall st, src st = s -> P st -> match m st with (Ok a, st') => Q a st' | (Err e, _) => perr e end.
Definition vtri {A} (m : M A) (V : A -> Prop) : Prop := tri m (fun _ => True) (fun a _ => V a).

Lemma good_src {A} (m : M A) st : good m -> src (snd (m st)) = src st.
Proof. intros H. destruct (H st) as [w Hw]. eapply moved_src; exact Hw. Qed.
Lemma tri_bind {A B} (m : M A) (f : A -> M B) P Q R :
  good m -> tri m P Q -> (forall a, tri (f a) (Q a) R) -> tri (bind m f) P R.
Proof.
  intros G H K st Hs HP. unfold bind. specialize (H st Hs HP). pose proof (good_src m st G) as Hs'.
  destruct (m st) as [[a|e] st1]; cbn [snd] in Hs'; [|exact H]. apply K; [congruence|exact H].
Qed.
Lemma vtri_bind {A B} (m : M A) (f : A -> M B) V W :
  good m -> vtri m V -> (forall a, V a -> vtri (f a) W) -> vtri (bind m f) W.
Proof.
  intros G H K. eapply tri_bind; [exact G|exact H|]. intros a st Hs Ha. apply K; auto.
Qed.
Lemma tri_pre {A} (m : M A) (P P' : pst -> Prop) Q : (forall st, P' st -> P st) -> tri m P Q -> tri m P' Q.
Proof. intros H T st Hs Hp. apply T; auto. Qed.
Lemma tri_post {A} (m : M A) P (Q Q' : A -> pst -> Prop) : (forall a st, src st = s -> Q a st -> Q' a st) -> good m -> tri m P Q -> tri m P Q'.
Proof.
  intros H G T st Hs Hp. specialize (T st Hs Hp). pose proof (good_src m st G) as Hs'.
  destruct (m st) as [[a|e] st1]; cbn [snd] in Hs'; [|exact T]. apply H; [congruence|exact T].
Qed.
Lemma vtri_post {A} (m : M A) (V W : A -> Prop) : (forall a, V a -> W a) -> vtri m V -> vtri m W.
Proof. intros H T st Hs Hp. specialize (T st Hs Hp). destruct (m st) as [[a|e] st1]; auto. Qed.
Lemma tri_ret {A} (a : A) (P : pst -> Prop) (Q : A -> pst -> Prop) : (forall st, P st -> Q a st) -> tri (ret a) P Q.
Proof. intros H st _ Hp. apply H, Hp. Qed.
Lemma vtri_ret {A} (a : A) (V : A -> Prop) : V a -> vtri (ret a) V.
Proof. intros H st _ _. exact H. Qed.
Lemma perr_parse k st : src st = s -> perr (parse_error k st).
Proof.
  intros H. unfold parse_error. destruct (to_linecol (src st) (idx st)) as [l c] eqn:E. exists (idx st). rewrite H in E. split; [|auto].
  rewrite <- H. unfold src, idx. rewrite app_length. lia.
Qed.
Lemma tri_raise {A} k P Q : tri (@raise A k) P Q.
Proof. intros st Hs _. apply perr_parse, Hs. Qed.
Lemma tri_raise_exn {A} e P Q : perr e -> tri (@raise_exn A e) P Q.
Proof. intros H st _ _. exact H. Qed.
Lemma tri_lift {A} (r : res A) (V : A -> Prop) : rok nosp noaot strict V r -> vtri (lift r) V.
Proof.
  intros H st _ _. cbn [lift]. destruct r as [a|e]; cbn [rok] in H; [exact H|].
  destruct e; cbn in *; auto; contradiction.
Qed.
Lemma tri_restore {A} (m : M A) P Q : tri m P Q -> tri (restore_on_err m) P Q.
Proof. intros H st Hs Hp. specialize (H st Hs Hp). unfold restore_on_err. destruct (m st) as [[a|e] st1]; exact H. Qed.
Lemma vtri_restoring_all {A} (m : M A) V : vtri m V -> vtri (restoring_all m) V.
Proof. intros H st Hs Hp. specialize (H st Hs Hp). unfold restoring_all. destruct (m st) as [[a|e] st1]; exact H. Qed.
Lemma vtri_restoring {A} (m : M A) V : vtri m V -> vtri (restoring m) V.
Proof. intros H st Hs Hp. specialize (H st Hs Hp). unfold restoring. destruct (m st) as [[a|e] st1]; exact H. Qed.

(** Functions that cannot fail *)
Definition total {A} (m : M A) : Prop := forall st, exists a st', m st = (Ok a, st').
Lemma vtri_total {A} (m : M A) : total m -> vtri m (fun _ => True).
Proof. intros H st _ _. destruct (H st) as (a & st' & ->). exact I. Qed.
Lemma total_inc : total incM.
Proof. intros st. unfold incM. destruct (inc st). eauto. Qed.
Lemma total_incn n : total (inc_nM n).
Proof. intros st. unfold inc_nM. destruct (inc_n n st). eauto. Qed.
Lemma vtri_inc_exn k : vtri (inc_exn k) (fun _ => True).
Proof.
  intros st Hs _. unfold inc_exn. pose proof (good_src incM st good_inc) as H. unfold incM in H.
  destruct (inc st) as [[] st']; [exact I|]. apply perr_parse. cbn [snd] in H. congruence.
Qed.
Lemma vtri_inc_n_exn n k : vtri (inc_n_exn n k) (fun _ => True).
Proof.
  induction n; cbn [inc_n_exn]; [apply vtri_ret; exact I|]. eapply vtri_bind; [auto with good|apply vtri_inc_exn|]. intros _ _. exact IHn.
Qed.
Lemma vtri_consume1 c : vtri (consume1 c) (fun _ => True).
Proof. intros st Hs _. unfold consume1. destruct (_ =? _)%N; [exact I|]. apply perr_parse, Hs. Qed.

Ltac tot := intros st; eexists; eexists; reflexivity.
Lemma vt_mark : vtri mark (fun _ => True). Proof. apply vtri_total. tot. Qed.
Lemma vt_extract : vtri extractM (fun _ => True). Proof. apply vtri_total. tot. Qed.
Lemma vt_current : vtri current (fun _ => True). Proof. apply vtri_total. tot. Qed.
Lemma vt_end : vtri endM (fun _ => True). Proof. apply vtri_total. tot. Qed.
Lemma vt_get : vtri get (fun _ => True). Proof. apply vtri_total. tot. Qed.
Lemma vt_adv p : vtri (adv_whileM p) (fun _ => True). Proof. apply vtri_total. tot. Qed.
Lemma vt_since a : vtri (since a) (fun _ => True). Proof. apply vtri_total. tot. Qed.
Lemma vt_idx : vtri idxM (fun _ => True). Proof. apply vtri_total. tot. Qed.
Lemma vt_peek n : vtri (peek n) (fun _ => True). Proof. apply vtri_total. tot. Qed.
Lemma vt_inc : vtri incM (fun _ => True). Proof. apply vtri_total, total_inc. Qed.
Lemma vt_incn n : vtri (inc_nM n) (fun _ => True). Proof. apply vtri_total, total_incn. Qed.
Lemma vt_raise {A} k V : vtri (@raise A k) V. Proof. apply tri_raise. Qed.
Lemma vt_fuel {A} V : vtri (@raise_exn A FuelE) V. Proof. apply tri_raise_exn. exact I. Qed.
Lemma vt_lossy b n : (b = true -> strict = true) -> vtri (lossy_if b n) (fun _ => True).
Proof. intros H. unfold lossy_if. destruct b; [apply tri_raise_exn; cbn; auto|apply vtri_ret; exact I]. Qed.
Lemma vt_true {A} (m : M A) V : vtri m V -> vtri m (fun _ => True).
Proof. apply vtri_post. auto. Qed.

Hint Resolve vtri_inc_exn vtri_inc_n_exn vtri_consume1 vt_mark vt_extract vt_current vt_end vt_get vt_adv vt_since vt_idx vt_peek
  vt_inc vt_incn vt_raise vt_fuel : vt.
Ltac vt :=
  repeat (first [ solve [auto with vt]
                | eapply vt_true; solve [auto with vt]
                | apply vtri_ret; solve [auto]
                | eapply vtri_bind; [solve [good] | solve [eassumption | eauto 2 with vt] | intros ? ?]
                | apply (vtri_bind _ _ (fun _ => True)); [solve [good] | | intros ? ?]
                | apply tri_restore
                | match goal with |- vtri (match ?x with _ => _ end) _ => destruct x eqn:? end
                | match goal with |- vtri (let _ := _ in _) _ => cbv zeta end
                | progress cbv zeta ]).
Local Notation T := (fun _ => True).
Ltac vb := apply (vtri_bind _ _ (fun _ => True)); [solve [good] | solve [auto with vt] | intros ? _].

Lemma vt_trail : vtri parse_trail T.
Proof. unfold parse_trail. vt. Qed.
Hint Resolve vt_trail : vt.
Lemma vt_comment_trail b : vtri (parse_comment_trail b) T.
Proof. unfold parse_comment_trail. vt. Qed.
Lemma vt_peek_unicode b : vtri (peek_unicode b) T.
Proof. apply vtri_restoring_all. vt. Qed.
Lemma vt_skip_ws : vtri skip_ws_exn T.
Proof.
  intros st Hs _. unfold skip_ws_exn. destruct (_ && _); [|exact I]. apply perr_parse.
  rewrite <- Hs. apply (good_src (adv_whileM is_ws) st (good_adv _)).
Qed.
Hint Resolve vt_comment_trail vt_peek_unicode vt_skip_ws : vt.
Lemma vt_escaped b : vtri (parse_escaped_char b) T.
Proof. unfold parse_escaped_char. vt. Qed.
Hint Resolve vt_escaped : vt.
Lemma vt_string_loop n : forall d v e, vtri (string_loop n d v e) T.
Proof. induction n as [|n IH]; intros; cbn [string_loop]; vt. Qed.
Lemma vt_skip_nl : vtri skip_first_newline T.
Proof. unfold skip_first_newline. vt. apply vtri_restoring. vt. Qed.
Hint Resolve vt_string_loop vt_skip_nl : vt.
Lemma vt_parse_string n d : vtri (parse_string n d) T.
Proof. unfold parse_string. vt. Qed.
Hint Resolve vt_parse_string : vt.

Definition kfine (k : key) : Prop := match k with KSingle _ => True | KDotted ks _ _ => 2 <= List.length ks end.
Lemma kfine_parts k : kfine k -> 1 <= List.length (key_parts k).
Proof. destruct k; cbn; lia. Qed.
Lemma vt_parse_key n : vtri (parse_key n) kfine.
Proof.
  induction n as [|n IH]; cbn [parse_key]; [apply vt_fuel|]. vt.
  apply vtri_ret. cbn. match goal with H : kfine _ |- _ => apply kfine_parts in H; lia end.
Qed.
Hint Resolve vt_parse_key : vt.

Lemma good_seploop f : good (fun st => sep_loop (p_rest st) (p_pre st) (p_mark st) f).
Proof. intros st. destruct st as [pre rest mk]. apply sep_loop_moves. Qed.
Hint Resolve good_seploop : good.
Lemma vt_seploop f : vtri (fun st => sep_loop (p_rest st) (p_pre st) (p_mark st) f) T.
Proof.
  intros st Hs _. destruct st as [pre rest mk]. cbn [p_rest p_pre p_mark]. unfold src in Hs. cbn [p_pre p_rest] in Hs.
  revert f pre mk Hs. induction rest as [|c r IH]; intros f pre mk Hs; cbn [sep_loop]; [exact I|].
  assert (Hs' : (pre ++ [c]) ++ r = s) by (rewrite <- app_assoc; exact Hs).
  destruct (is_kv_sep c); [|exact I]. destruct r as [|d r']; [exact I|].
  destruct (d =? chEQ)%N; [destruct f|]; [|apply IH; exact Hs'|apply IH; exact Hs'].
  cbv zeta. apply perr_parse. exact Hs'.
Qed.
Hint Resolve vt_seploop : vt.
Lemma vt_sep : vtri parse_sep T.
Proof. unfold parse_sep. vt. Qed.
Definition slice (w : str) : Prop := exists a b, s = a ++ w ++ b.
Lemma vt_extract_slice : vtri extractM slice.
Proof.
  intros st Hs _. cbn. unfold extract. exists (firstn (p_mark st) (p_pre st)), (p_rest st).
  rewrite app_assoc, firstn_skipn. symmetry. exact Hs.
Qed.
Lemma dec_value_bound y : Forall (fun c => is_ascii_digit c = true) y -> (dec_value y < 10 ^ N.of_nat (List.length y))%N.
Proof.
  unfold dec_value. intros H.
  assert (G : forall y a, Forall (fun c => is_ascii_digit c = true) y ->
    (fold_left (fun a c => a * 10 + (c - 48)) y a < (a + 1) * 10 ^ N.of_nat (List.length y))%N).
  { clear. induction y as [|c y IH]; intros a H; cbn [fold_left List.length]; [cbn; lia|].
    inversion H; subst. specialize (IH (a * 10 + (c - 48))%N H3). unfold is_ascii_digit in H2.
    rewrite Nat2N.inj_succ, N.pow_succ_r'. eapply N.lt_le_trans; [exact IH|].
    replace ((a + 1) * (10 * 10 ^ N.of_nat (List.length y)))%N with ((a * 10 + 10) * 10 ^ N.of_nat (List.length y))%N by lia.
    apply N.mul_le_mono_r. lia. }
  specialize (G y 0%N H). lia.
Qed.
Definition year_digits (w : str) : str := take_while is_ascii_digit w.
Lemma rfc_err w e : parse_rfc3339 w = Err e -> e = ValueErrorE \/ (e = OverflowErrorE /\ (2147483647 < dec_value (year_digits w))%N).
Proof.
  assert (D : forall okm okd d r, m_date okm okd w = Some (d, r) -> d_year d = dec_value (year_digits w)).
  { intros okm okd d r. unfold m_date. fold (year_digits w). intros H.
    repeat match type of H with match ?x with _ => _ end = _ => destruct x; try discriminate end. inversion H; subst. reflexivity. }
  unfold parse_rfc3339. destruct (m_datetime w) as [[[d t] tz]|] eqn:E.
  - unfold m_datetime in E. destruct (m_date re_month re_day w) as [[d' r]|] eqn:Ed; [|discriminate].
    assert (d' = d). { repeat match type of E with match ?x with _ => _ end = _ => destruct x; try discriminate end; inversion E; reflexivity. }
    subst. apply D in Ed. unfold py_datetime. destruct (N.ltb_spec 2147483647 (d_year d)).
    + cbn. intros X; inversion X; subst. right. rewrite <- Ed. auto.
    + destruct (_ && _); cbn; intros X; inversion X; auto.
  - destruct (m_date re_month re_day w) as [[d' r]|] eqn:Ed.
    + destruct (re_end r).
      * apply D in Ed. unfold py_date. destruct (N.ltb_spec 2147483647 (d_year d')).
        -- cbn. intros X; inversion X; subst. right. rewrite <- Ed. auto.
        -- destruct (valid_date _); cbn; intros X; inversion X; auto.
      * destruct (m_time re_hour re_min re_sec w) as [[[[[h mi] sc] f] rr]|]; [|cbn; intros X; inversion X; auto].
        destruct (re_end rr); [|cbn; intros X; inversion X; auto].
        unfold py_time. destruct (valid_time _); cbn; intros X; inversion X; auto.
    + destruct (m_time re_hour re_min re_sec w) as [[[[[h mi] sc] f] rr]|]; [|cbn; intros X; inversion X; auto].
      destruct (re_end rr); [|cbn; intros X; inversion X; auto].
      unfold py_time. destruct (valid_time _); cbn; intros X; inversion X; auto.
Qed.
Lemma slice_year w : slice w -> short = true -> (dec_value (year_digits w) < 1000000000)%N.
Proof.
  intros (a & b & E) Hs. unfold year_digits. pose proof (take_while_all is_ascii_digit w) as F.
  pose proof (dec_value_bound _ F) as B.
  assert (Hl : List.length (take_while is_ascii_digit w) <= 9).
  { apply (Hshort Hs a _ (drop_while is_ascii_digit w ++ b)); [|exact F]. rewrite app_assoc with (m := drop_while _ _), take_drop. exact E. }
  eapply N.lt_le_trans; [exact B|]. change 1000000000%N with (10 ^ 9)%N. apply N.pow_le_mono_r; lia.
Qed.
Lemma vt_value_error k w : (exists r, slice r /\ year_digits w = year_digits r) -> vtri (value_error k (parse_rfc3339 w)) T.
Proof.
  intros (r & Hr & Ey). destruct (parse_rfc3339 w) as [a|e] eqn:E; cbn [value_error]; [vt|].
  apply rfc_err in E as [->|[-> Hy]]; [apply vt_raise|]. apply tri_raise_exn. cbn. apply not_true_is_false. intros Es.
  pose proof (slice_year r Hr Es). rewrite Ey in Hy. lia.
Qed.
Lemma loose_year raw tl b : loose_match raw = Some (true, b) -> year_digits (raw ++ tl) = year_digits raw.
Proof.
  unfold loose_match. destruct (m_date re_dd re_dd raw) as [[d r]|] eqn:E; [|destruct (m_loose_time raw), (re_end raw); discriminate].
  intros _. unfold m_date in E. unfold year_digits.
  assert (X : drop_while is_ascii_digit raw <> []) by (destruct (take_while is_ascii_digit raw); [discriminate|];
    intros X; rewrite X in E; discriminate). clear E.
  induction raw as [|c raw IH]; cbn [app take_while drop_while] in *; [congruence|].
  destruct (is_ascii_digit c); [|reflexivity]. f_equal. apply IH, X.
Qed.

Definition isval (i : item) : Prop := is_table_or_aot i = false.
Definition kvfine (kv : key * item) : Prop := kfine (fst kv) /\ isval (snd kv).
Definition item_ok (r : option (option key * item)) : Prop :=
  match r with Some (k, i) => key_fine k /\ isval i | None => True end.
(** A value that a parser has made. *)
Definition wval (i : item) : Prop := is_deco i = false /\ isval i /\ wfi true true deep i.
Definition well_elem (e : aelem) : Prop := match e with EVal i => wval i | _ => True end.
Local Ltac leaf := split; [reflexivity|split; [reflexivity|apply wf_leaf; reflexivity]].
Lemma group_loop_ok l : forall this first, Forall well_elem l ->
  (this = mkGroup None None None None \/ group_ok this) -> (g_indent this = None -> first = true) -> (forall v, g_value this = Some v -> is_deco v = false /\ wfi true true deep v) ->
  groups_ok first (filter g_bool (group_loop l this)) /\ Forall (fun g => forall v, g_value g = Some v -> is_deco v = false /\ wfi true true deep v) (filter g_bool (group_loop l this)).
Proof.
  set (P := fun g : agroup item => forall v, g_value g = Some v -> is_deco v = false /\ wfi true true deep v).
  assert (Push : forall this first gs, (this = mkGroup None None None None \/ group_ok this) -> (g_indent this = None -> first = true) -> P this ->
    (groups_ok (if g_bool this then match g_value this with Some _ => true | None => false end else first) gs /\ Forall P gs) ->
    groups_ok first (if g_bool this then this :: gs else gs) /\ Forall P (if g_bool this then this :: gs else gs)).
  { intros this first gs Hg Hf Hp [H1 H2]. destruct (g_bool this) eqn:Eb; [|split; assumption]. destruct Hg as [->|Hg]; [discriminate|]. cbn [groups_ok]. split; [split; [exact Hg|split; [exact Hf|exact H1]]|constructor; assumption]. }
  assert (Nb : forall this, g_bool this = false -> this = mkGroup None None None None) by (intros [[?|] [?|] [?|] [?|]]; cbn; congruence).
  induction l as [|e l IH]; intros this first Hl Hg Hf Hp.
  - cbn [group_loop filter]. apply (Push this first []); auto. split; [exact I|constructor].
  - inversion Hl as [|? ? He Hl']; subst. destruct e as [w|t|i]; cbn [group_loop].
    + destruct (inb chCOMMA w) eqn:Ec.
      * apply IH; auto; [right|]; cbn [g_indent g_value].
        -- split; [discriminate|]. destruct Hg as [->|(_ & A & _)]; (split; [|split; [intros x X; cbn in X; injection X as <-; exact Ec|split; intros _; cbn; discriminate]]); cbn; [discriminate|exact A].
        -- intros v X. injection X as <-. unfold P in Hp. destruct (g_value this); [apply Hp; reflexivity|]. split; [reflexivity|apply wf_leaf; reflexivity].
      * cbn [filter]. apply Push; auto. apply IH; auto.
        -- right. split; [discriminate|]. split; [intros x X; cbn in X; injection X as <-; exact Ec|]. split; [discriminate|]. split; intros X; cbn in X; congruence.
        -- cbn [g_indent]. discriminate.
        -- intros v X. discriminate.
    + apply IH; auto; [right|]; cbn [g_indent g_value].
      * split; [discriminate|]. destruct Hg as [->|(_ & A & B & _)]; (split; [|split; [|split; intros _; unfold has_value; cbn; discriminate]]); cbn; try discriminate; [exact A|exact B].
      * intros v X. injection X as <-. unfold P in Hp. destruct (g_value this); [apply Hp; reflexivity|]. split; [reflexivity|apply wf_leaf; reflexivity].
    + cbn in He. destruct (g_value this) as [v0|] eqn:Ev.
      * cbn [filter]. apply Push; auto; [intros v X; apply Hp; congruence|]. apply IH; auto.
        -- right. split; [discriminate|]. split; [discriminate|]. split; [discriminate|]. split; intros X; cbn in X; congruence.
        -- intros _. destruct (g_bool this) eqn:Eb; [rewrite Ev; reflexivity|]. rewrite (Nb _ Eb) in Ev. discriminate.
        -- intros v X. cbn in X. injection X as <-. split; apply He.
      * apply IH; auto; [right|].
        -- split; [discriminate|]. destruct Hg as [->|(_ & A & B & _)]; (split; [|split; [|split; intros _; unfold has_value; cbn; discriminate]]); cbn; try discriminate; [exact A|exact B].
        -- intros v X. cbn in X. injection X as <-. split; apply He.
Qed.
Lemma array_wf l t ml : Forall well_elem l -> wfi true true deep (IArray (group_values l) t ml).
Proof. intros H. destruct (group_loop_ok l empty_group true H) as [A B]; [left; reflexivity|reflexivity|intros v X; discriminate|]. apply wf_array; assumption. Qed.

Hint Resolve vt_sep vt_value_error : vt.
Lemma vt_number raw : vtri (match parse_number raw with Some v => ret (scalar_item v) | None => raise KInvalidNumber end) wval.
Proof. vt. apply vtri_ret. leaf. Qed.
Hint Resolve vt_number : vt.
Lemma vt_signed : vtri parse_signed_value wval.
Proof. unfold parse_signed_value. vt. Qed.
Lemma vt_digit : vtri parse_digit_value wval.
Proof.
  unfold parse_digit_value. vb.
  eapply vtri_bind; [good|apply vt_extract_slice|]. intros raw Hraw.
  destruct (loose_match raw) as [[[|] [|]]|] eqn:El; try apply vt_number.
  - eapply vtri_bind; [good|apply vt_value_error; eauto|]. intros dt _. vt. apply vtri_ret. leaf.
  - eapply vtri_bind; [good|apply vt_value_error; eauto|]. intros dt _. destruct dt; try apply vt_raise.
    vb. vb.
    apply (vtri_bind _ _ (fun _ => True)); [solve [good] | solve [auto with vt] | intros tr _]. cbv zeta. generalize (rstrip tr) as tp. intros tp. destruct tp as [|tc tp]; [apply vtri_ret; leaf|].
    eapply vtri_bind; [good|apply vt_value_error|].
    + exists raw. split; [exact Hraw|]. eapply loose_year; eauto.
    + intros dt2 _. vt; apply vtri_ret; leaf.
  - eapply vtri_bind; [good|apply vt_value_error; eauto|]. intros dt _. vt. apply vtri_ret. leaf.
Qed.
Lemma vt_bool b : vtri (parse_bool b) wval.
Proof.
  unfold parse_bool. apply tri_restore. eapply vtri_bind; [| |intros _ _; apply vtri_ret; leaf].
  - generalize (if b then L "true" else L "false"). intros w. induction w; cbn [consume_all]; good.
  - instantiate (1 := T). generalize (if b then L "true" else L "false"). intros w. induction w; cbn [consume_all]; vt.
Qed.
Hint Resolve vt_signed vt_digit vt_bool : vt.
Lemma set_trivia_val t i : wval i -> wval (set_trivia t i).
Proof.
  intros (A & B & C). destruct i as [| | | |gs t0 ml|c t0 nw| |]; try discriminate; try (split; [reflexivity|split; [reflexivity|apply wf_leaf; reflexivity]]).
  - split; [reflexivity|split; [reflexivity|]]. inversion C; subst; try discriminate; [apply wf_any; [assumption|reflexivity]|apply wf_array; assumption].
  - split; [reflexivity|split; [reflexivity|]]. inversion C; subst; try discriminate; [apply wf_any; [assumption|reflexivity]|apply wf_inline; assumption].
Qed.
Definition kvwell (kv : key * item) : Prop := kfine (fst kv) /\ wval (snd kv).
Lemma kfine_set_sep sep k : kfine k -> kfine (key_set_sep sep k).
Proof. destruct k; auto. Qed.
Lemma vt_kv_with pv n b : good pv -> vtri pv wval -> vtri (key_value_with strict pv n b) kvwell.
Proof.
  intros G H. unfold key_value_with. vt;
    try (apply vtri_ret; split; [apply kfine_set_sep; assumption|apply set_trivia_val; assumption]);
    try (apply vt_lossy; intros X; apply andb_true_iff in X as [X _]; try (apply andb_true_iff in X as [X _]); exact X).
Qed.
Lemma kfine_key k : kfine k -> key_fine (Some k).
Proof. destruct k; auto. Qed.
Lemma vt_add c k i : wfc true true deep c -> wfi true true deep i -> key_fine k -> vtri (add_elem strict c k i) (wfc true true deep).
Proof.
  intros Hc Hi Hk. apply tri_lift. pose proof (cappend_ok true true deep strict c k i Hc Hi Hk) as R. destruct (cappend strict c k i) as [c'|e]; [exact R|].
  destruct e; cbn [rok okerr] in *; try exact R; try discriminate; try (destruct R; discriminate).
Qed.
Lemma vt_values n : vtri (parse_value strict n) wval /\ (forall e p, Forall well_elem e -> vtri (array_loop strict n e p) wval)
  /\ (forall c t, wfc true true deep c -> vtri (inline_loop strict n c t) wval).
Proof.
  induction n as [|n (IH1 & IH2 & IH3)].
  - repeat split; intros; cbn [parse_value array_loop inline_loop]; vt.
  - pose proof (good_values n strict) as (G1 & G2 & G3). split; [|split].
    + cbn [parse_value]. vt; try (apply vtri_ret; leaf); first [apply IH2; constructor|apply IH3, wfc_empty].
    + intros e p He. cbn [array_loop].
      assert (Arr : wval (IArray (group_values e) default_trivia false)) by (split; [reflexivity|split; [reflexivity|apply array_wf, He]]).
      assert (Go : forall x q, well_elem x -> vtri (array_loop strict n (e ++ [x]) q) wval) by (intros x q Hx; apply IH2, Forall_app; split; [exact He|constructor; [exact Hx|constructor]]).
      vt.
      all: match goal with |- vtri (fun _ => _) _ => idtac | |- _ => first [apply vtri_ret; exact Arr|apply Go; exact I|idtac] end.
      all: intros st Hs _; pose proof (IH1 st Hs I) as Hv; pose proof (good_src _ st G1) as Hs';
        destruct (parse_value strict n st) as [[v|er] st1]; cbn [snd] in Hs';
        [ destruct (strict && _) eqn:Es; [apply andb_true_iff in Es as [Es _]; exact Es|];
          apply (Go (EVal v) _ Hv st1); [congruence|exact I]
        | destruct er as [k0 l0 c0| | | | | | | | | | | | | |]; try exact Hv; destruct k0; try exact Hv;
          match goal with |- match (if ?b then _ else _) with _ => _ end => destruct b eqn:Es end;
          [apply andb_true_iff in Es as [Es _]; apply andb_true_iff in Es as [Es _]; exact Es|];
          match goal with |- match ?m st1 with _ => _ end => assert (G : vtri m wval) by (vt; first [apply vtri_ret; exact Arr|apply Go; exact I]) end;
          apply G; [congruence|exact I] ].
    + intros c t Hc. cbn [inline_loop]. 
      assert (Hkv : vtri (key_value_with strict (parse_value strict n) n false) kvwell) by (apply vt_kv_with; assumption).
      assert (Gkv : good (key_value_with strict (parse_value strict n) n false)) by (apply good_kv_with; exact G1).
      apply (vtri_bind _ _ (fun _ => True)); [solve [good] | solve [auto with vt] | intros a _].
      vb. apply (vtri_bind _ _ (fun _ => True)); [solve [good] | solve [auto with vt] | intros raw _].
      apply (vtri_bind _ _ (wfc true true deep)); [unfold add_elem; good|destruct (nonempty raw); [apply vt_add; [exact Hc|apply wf_leaf; reflexivity|exact I]|apply vtri_ret; exact Hc]|].
      intros c1 Hc1. apply (vtri_bind _ _ (fun _ => True)); [solve [good] | solve [auto with vt] | intros ch _].
      assert (GI : forall c t, good (inline_loop strict n c t)) by (intros; apply G3).
      match goal with |- vtri (if ?b then _ else _) _ => destruct b end; [vt; apply vtri_ret; split; [reflexivity|split; [reflexivity|apply wf_inline, Hc1]]|].
      match goal with |- vtri (if ?b then _ else _) _ => destruct b end; [apply vt_raise|].
      eapply vtri_bind; [exact Gkv|exact Hkv|]. intros [k i] [Hk Hi]. cbn [fst snd] in *.
      apply (vtri_bind _ _ (wfc true true deep)); [unfold add_elem; good|apply vt_add; [exact Hc1|apply Hi|apply kfine_key; exact Hk]|].
      intros c2 Hc2. apply (vtri_bind _ _ (fun _ => True)); [solve [good] | solve [auto with vt] | intros a2 _].
      vb. apply (vtri_bind _ _ (fun _ => True)); [solve [good] | solve [auto with vt] | intros raw2 _].
      apply (vtri_bind _ _ (wfc true true deep)); [unfold add_elem; good|destruct (nonempty raw2); [apply vt_add; [exact Hc2|apply wf_leaf; reflexivity|exact I]|apply vtri_ret; exact Hc2]|].
      intros c3 Hc3. apply (vtri_bind _ _ (fun _ => True)); [solve [good] | solve [auto with vt] | intros ch2 _].
      destruct (ch2 =? chCOMMA)%N; [|apply IH3; exact Hc3].
      eapply vtri_bind; [good|apply vt_lossy; intros X; apply andb_true_iff in X as [X _]; exact X|]. intros _ _.
      vb. apply IH3; exact Hc3.
Qed.
Lemma vt_value n : vtri (parse_value strict n) wval.
Proof. apply vt_values. Qed.
Lemma vt_kv n b : vtri (parse_key_value strict n b) kvwell.
Proof. apply vt_kv_with; [good|apply vt_value]. Qed.
Hint Resolve vt_value vt_kv : vt.
Lemma wval_wfi i : wval i -> wfi nosp noaot deep i.
Proof.
  intros (A & B & H). destruct i; try discriminate; inversion H; subst; try discriminate; first [apply wf_leaf; assumption|apply wf_any; assumption|apply wf_array; assumption|apply wf_inline; assumption].
Qed.
Definition item_well (r : option (option key * item)) : Prop :=
  match r with Some (k, i) => key_fine k /\ wfi nosp noaot deep i /\ isval i | None => True end.
Lemma vt_item_head : vtri item_head (fun h => match h with HItem i => wfi nosp noaot deep i /\ isval i | _ => True end).
Proof. unfold item_head. vt; apply vtri_ret; first [exact I|split; [apply wf_leaf; reflexivity|reflexivity]]. Qed.
Lemma vt_item n : vtri (parse_item strict n) item_well.
Proof.
  intros st Hs _. unfold parse_item. pose proof (tri_restore _ _ _ vt_item_head st Hs I) as H.
  destruct (restore_on_err item_head st) as [[[i| |]|e] st1]; cbn beta iota in H; try exact H; try exact I.
  - split; [exact I|exact H].
  - set (st2 := mkSt _ _ _). assert (G : vtri (kv <- parse_key_value strict n true;; ret (Some (Some (fst kv), snd kv))) item_well).
    { eapply vtri_bind; [good|apply vt_kv|]. intros kv [A B]. apply vtri_ret. split; [apply kfine_key; exact A|split; [apply wval_wfi, B|apply B]]. }
    apply (G st2 Hs I).
Qed.
Lemma tri_item n : tri (parse_item strict n) bol (fun r st => item_well r /\ item_post r st).
Proof.
  intros st Hs Hb. pose proof (vt_item n st Hs I) as H. pose proof (item_line strict n st) as K.
  destruct (parse_item strict n st) as [[r|e] st1]; [|exact H]. split; [exact H|]. apply K; auto.
Qed.
Lemma vt_table_key n : vtri (parse_table_key n) kfine.
Proof.
  intros st Hs _. unfold parse_table_key. pose proof (vt_parse_key n st Hs I) as H. pose proof (good_src _ st (good_parse_key n)) as G.
  destruct (parse_key n st) as [[k|e] st1]; cbn [snd] in G; [exact H|].
  destruct e as [k0 l0 c0| | | | | | | | | | | | | |]; try exact H. destruct k0; try exact H. apply perr_parse. congruence.
Qed.
Hint Resolve vt_table_key : vt.
Lemma vt_peek_table n : vtri (peek_table n) (fun r => kfine (snd r)).
Proof. apply vtri_restoring_all. vt. Qed.

(** From a state before to the same state: look-ahead *)
Lemma tri_peek_table n (P : pst -> Prop) : tri (peek_table n) P (fun r st => kfine (snd r) /\ P st).
Proof.
  intros st Hs Hp. pose proof (vt_peek_table n st Hs I) as H. pose proof (proj1 (proj2 (peeks_still st)) n) as E.
  destruct (peek_table n st) as [[r|e] st1]; cbn [snd] in E; [|exact H]. subst. auto.
Qed.
Lemma tri_vt {A} (m : M A) P V : vtri m V -> tri m P (fun a _ => V a).
Proof. intros H st Hs _. apply H; auto. Qed.
Lemma tri_still {A} (m : M A) (P : pst -> Prop) V : (forall st, snd (m st) = st) -> vtri m V -> tri m P (fun a st => V a /\ P st).
Proof.
  intros E H st Hs Hp. specialize (H st Hs I). specialize (E st). destruct (m st) as [[a|e] st1]; cbn [snd] in E; [|exact H]. subst. auto.
Qed.

Local Notation wi := (wfi nosp noaot deep).
Local Notation wc := (wfc nosp noaot deep).
Lemma header_flags st : src st = s -> header_pos st ->
  (nosp = true -> first_spaces (extract st) = None)
  /\ (noaot = true -> match p_rest st with _ :: d :: _ => d <> chLBR | _ => True end).
Proof.
  intros Hs (a & w & r & Hp & Hr & Ha & Hw & Hm).
  assert (Es : s = a ++ w ++ chLBR :: r) by (rewrite <- Hs; unfold src; rewrite Hp, Hr, app_assoc; reflexivity).
  split.
  - intros H. pose proof (Hnosp H a w r Es Ha Hw) as N0.
    assert (X : extract st = w) by (unfold extract; rewrite Hp, Hm, skipn_length_app; reflexivity). rewrite X.
    unfold first_spaces. clear -N0.
    assert (Y : drop_while (fun c => negb (c =? chSP)%N) w = []).
    { induction w as [|c w IH]; cbn [drop_while]; [reflexivity|]. destruct (N.eqb_spec c chSP) as [->|]; cbn [negb].
      - exfalso. apply N0. left; reflexivity.
      - apply IH. intros H. apply N0. right; exact H. }
    rewrite Y. reflexivity.
  - intros H. rewrite Hr. destruct r as [|d r]; [exact I|]. intros ->. exact (Hnoaot H a w r Es Ha Hw).
Qed.

Lemma merge_ws_ok i c st c' : wc c -> merge_ws i c st = Some c' -> wc c'.
Proof.
  intros Hc H. inversion Hc as [body m tks d Hb Hm Ht]; subst c. unfold merge_ws in H. destruct i; try discriminate.
  destruct (rev body) as [|[k [l f| | | | | | | ]] r] eqn:E; try discriminate. inversion H; subst; clear H.
  assert (Eb : body = rev r ++ [(k, IWs l f)]) by (rewrite <- (rev_involutive body), E; reflexivity).
  assert (Hn : nth_error body (List.length r) = Some (k, IWs l f)).
  { rewrite Eb, nth_error_app2; rewrite rev_length; [|lia]. rewrite Nat.sub_diag. reflexivity. }
  match goal with |- wfc _ _ _ (Cont (rev r ++ [(k, ?x)]) _ _ _ _) => assert (Es : rev r ++ [(k, x)] = list_set (List.length r) (k, x) body) end.
  { rewrite Eb, <- (rev_length r). generalize (rev r). intros l0. induction l0 as [|y l0 IH]; cbn [app List.length list_set]; [reflexivity|]. rewrite <- IH. reflexivity. }
  rewrite Es. eapply wfc_set; eauto. apply wf_leaf. reflexivity.
Qed.
Lemma nest_ok t c m a rest : forall parent, wc c -> tab_ok nosp noaot m -> (nosp = true -> first_spaces (tr_indent t) = None) ->
  (a = true -> noaot = false) -> wc (nest t rest parent c m a).
Proof.
  induction rest as [|x rest IH]; intros parent Hc Hm Ht Ha; cbn [nest]; [apply wfc_empty|].
  destruct rest as [|y rest].
  - apply singleton_ok. unfold leaf_item. destruct a; [|constructor; assumption]. constructor; [auto|reflexivity|].
    constructor; [split; assumption|constructor].
  - apply singleton_ok. constructor; [|apply IH; assumption]. split; [exact Ht|reflexivity].
Qed.
Lemma tri_wrap r P V : rok nosp noaot strict V r -> tri (wrap_append r) P (fun c _ => V c).
Proof.
  intros H. destruct r as [c|e]; cbn [wrap_append rok] in *; [apply tri_ret; auto|].
  destruct e; try apply tri_raise; apply tri_raise_exn; exact H.
Qed.
Lemma at_end_cases st : nextp st -> at_end st = false -> header_pos st.
Proof. intros [H|H] E; [congruence|exact H]. Qed.
Lemma tri_end {B} (f : bool -> M B) P Q : tri (f true) (fun st => P st /\ at_end st = true) Q -> tri (f false) (fun st => P st /\ at_end st = false) Q ->
  tri (bind endM f) P Q.
Proof. intros H1 H2 st Hs Hp. unfold bind, endM. destruct (at_end st) eqn:E; [apply H1|apply H2]; auto. Qed.
Lemma tri_cur {B} (f : char -> M B) P Q : (forall c, tri (f c) (fun st => P st /\ cur st = c) Q) -> tri (bind current f) P Q.
Proof. intros H st Hs Hp. unfold bind, current. apply H; auto. Qed.
Lemma tri_get {B} (f : pst -> M B) P Q : (forall x, tri (f x) (fun st => P st /\ st = x) Q) -> tri (bind get f) P Q.
Proof. intros H st Hs Hp. unfold bind, get. apply H; auto. Qed.
Lemma tri_false {A} (m : M A) (P : pst -> Prop) Q : (forall st, ~ P st) -> tri m P Q.
Proof. intros H st _ Hp. destruct (H st Hp). Qed.
Lemma header_cur st : header_pos st -> cur st = chLBR.
Proof. intros (a & w & r & _ & H & _). unfold cur. rewrite H. reflexivity. Qed.
(** A step that keeps the state: its value property, then continue. *)
Lemma tri_bind_still {A B} (m : M A) (f : A -> M B) (P : pst -> Prop) V R :
  good m -> (forall st a st', m st = (Ok a, st') -> st' = st) -> vtri m V -> (forall a, V a -> tri (f a) P R) -> tri (bind m f) P R.
Proof.
  intros G E H K st Hs Hp. specialize (H st Hs I). specialize (E st). unfold bind. destruct (m st) as [[a|e] st1]; [|exact H].
  rewrite (E a st1 eq_refl) in *. apply K; auto.
Qed.
Lemma still_lift {A} (r : res A) st a st' : lift r st = (Ok a, st') -> st' = st.
Proof. unfold lift. congruence. Qed.
Lemma still_lossy b n st a st' : lossy_if b n st = (Ok a, st') -> st' = st.
Proof. unfold lossy_if. intros H. destruct b; inversion H; reflexivity. Qed.
Lemma still_wrap r st a st' : wrap_append r st = (Ok a, st') -> st' = st.
Proof. destruct r as [c|e]; cbn; [intros H; inversion H; reflexivity|]. destruct e; cbn; intros H; inversion H; reflexivity. Qed.

Definition tab_post (r : key * item) (st : pst) : Prop := (wi (snd r) /\ kfine (fst r)) /\ nextp st.
Definition tabs_ok n :=
  (forall p t k, tri (parse_table strict n p t k) header_pos tab_post)
  /\ (forall f k c, wc c -> tri (table_loop strict n f k c) lineend (fun c' st => wc c' /\ nextp st))
  /\ (forall f k c, wc c -> tri (siblings strict n f k c) nextp (fun c' st => wc c' /\ nextp st))
  /\ (forall x m k, noaot = false -> elem_ok nosp noaot deep x -> tri (parse_aot strict n x m k) nextp (fun i st => wi i /\ nextp st))
  /\ (forall l m k, noaot = false -> Forall (elem_ok nosp noaot deep) l ->
        tri (aot_loop strict n l m k) nextp (fun l' st => Forall (elem_ok nosp noaot deep) l' /\ nextp st)).

Lemma and_false_l b c : (b && c)%bool = true -> b = true.
Proof. intros H. apply andb_true_iff in H. apply H. Qed.

Lemma tabs_all n : tabs_ok n.
Proof.
  induction n as [|n (IH1 & IH2 & IH3 & IH4 & IH5)].
  { repeat split; intros; cbn [parse_table table_loop siblings parse_aot aot_loop]; apply tri_raise_exn; exact I. }
  pose proof (good_tables n) as (G1 & G2 & G3 & G4 & G5).
  split; [|split; [|split; [|split]]].
  - intros p tx k st0 Hs0 Hh0. cbn [parse_table].
    destruct (header_flags st0 Hs0 Hh0) as [F1 F2].
    match goal with |- match ?m st0 with _ => _ end => assert (TT : tri m (fun st => st = st0) tab_post); [|apply TT; auto] end.
    apply tri_cur. intros c. destruct (negb (c =? chLBR)%N) eqn:Ec; [apply tri_raise|].
    apply tri_bind with (Q := fun ind st => st = st0 /\ ind = extract st0); [good|intros st Hs [-> _]; split; reflexivity|].
    intros indent. 
    apply tri_bind with (Q := fun _ st => indent = extract st0 /\ p_rest st = tl (p_rest st0)); [good| |].
    { intros st Hs [-> ->]. destruct Hh0 as (a0 & w & r & _ & Hr & _). unfold incM, inc. rewrite Hr. cbn. auto. }
    intros _. apply tri_end; [apply tri_raise|]. apply tri_cur. intros c2.
    apply tri_bind with (Q := fun (b : bool) st => indent = extract st0 /\ (b = true -> noaot = false)); [good| |].
    { intros st Hs [[[Hi Hr] He] Hc]. destruct (N.eqb_spec c2 chLBR) as [->|Hn].
      - assert (Na : noaot = false).
        { apply not_true_is_false. intros Na. specialize (F2 Na). destruct Hh0 as (a0 & w & r & _ & Hr0 & _). rewrite Hr0 in *. cbn [tl] in Hr.
          unfold cur in Hc. rewrite Hr in Hc. destruct r; [discriminate|]. congruence. }
        pose proof (good_src incM st good_inc) as V. unfold bind. destruct (incM st) as [[u|e] st'] eqn:Ei; cbn [snd] in V.
        + destruct u; [cbn; auto|apply perr_parse; congruence].
        + unfold incM in Ei. destruct (inc st); discriminate.
      - cbn. split; [exact Hi|discriminate]. }
    intros is_aot. apply tri_bind with (Q := fun key _ => (indent = extract st0 /\ (is_aot = true -> noaot = false)) /\ kfine key); [good| |].
    { intros st Hs Hp. pose proof (vt_table_key n st Hs I) as H. destruct (parse_table_key n st) as [[]]; auto. }
    intros key. apply tri_end; [apply tri_raise|]. apply tri_cur. intros c3. destruct (negb (c3 =? chRBR)%N); [apply tri_raise|]. cbv zeta.
    destruct (existsb _ _); [apply tri_raise|].
    set (X := (indent = extract st0 /\ (is_aot = true -> noaot = false)) /\ kfine key).
    apply tri_pre with (P := fun _ => X); [intros ? [[? ?] ?]; assumption|].
    intros st1 Hs1 [[Hi Ha] Hk]. 
    match goal with |- match ?m st1 with _ => _ end => assert (TT : tri m (fun _ => True) tab_post); [|apply TT; auto] end.
    clear st1 Hs1 X.
    apply tri_bind with (Q := fun _ _ => True); [good|apply vt_inc|]. intros _.
    apply tri_cur. intros c4. apply tri_bind with (Q := fun _ _ => True); [good| |].
    { eapply tri_vt, vt_lossy. intros E. apply and_false_l, and_false_l in E. exact E. }
    intros _. apply tri_bind with (Q := fun _ _ => True); [good|destruct is_aot; [apply vt_inc|apply tri_ret; auto]|]. intros _.
    apply tri_bind with (Q := fun _ st => lineend st); [good| |].
    { intros st Hs _. pose proof (vt_comment_trail true st Hs I) as H. destruct (parse_comment_trail true st) as [[r|e] st'] eqn:E; [|exact H].
      eapply comment_trail_line; exact E. }
    intros [[cws comment] trail]. 
    eapply tri_bind_still; [good|apply still_lossy|apply vt_lossy; intros E; apply and_false_l, and_false_l in E; exact E|]. intros _ _.
    eapply tri_bind_still; [good|apply still_lossy|apply vt_lossy; intros E; apply and_false_l, and_false_l in E; exact E|]. intros _ _.
    eapply tri_bind; [good|apply IH2, wfc_empty|]. intros c5.
    intros st Hs [Hc5 Hn]. revert st Hs Hn. match goal with |- forall st, _ -> _ -> match ?m st with _ => _ end => change (tri m nextp tab_post) end.
    eapply tri_bind_still; [good|apply still_lift|apply tri_lift; eapply validate_all_ok, Hc5|]. intros _ _.
    eapply tri_bind_still; [good|apply still_lossy|apply vt_lossy; intros E; apply and_false_l, and_false_l in E; exact E|]. intros _ _.
    assert (Htm : forall nm di, tab_ok nosp noaot (mkTM (mkTrivia indent cws comment trail) is_aot (Some false) nm di)).
    { intros. split; cbn; [intros; subst indent; auto|]. intros Hx. destruct is_aot; [specialize (Ha eq_refl); congruence|reflexivity]. }
    assert (Leaf : forall nm di rk, kfine rk -> tri
      (if is_aot && match k with top :: _ => negb (key_eqb (key_set_sep [] key) top) | [] => true end
       then aot <- parse_aot strict n (c5, mkTM (mkTrivia indent cws comment trail) is_aot (Some false) nm di) (key_set_sep [] key) k;; ret (rk, aot)
       else ret (rk, ITable c5 (mkTM (mkTrivia indent cws comment trail) is_aot (Some false) nm di))) nextp tab_post).
    { intros nm di rk Hrk. destruct (is_aot && _) eqn:Ea.
      - apply and_false_l in Ea. eapply tri_bind; [good|apply IH4; [auto|split; [apply Htm|exact Hc5]]|]. intros i. apply tri_ret.
        intros st [A B]. split; [split; assumption|exact B].
      - apply tri_ret. intros st B. split; [split; [constructor; [apply Htm|exact Hc5]|exact Hrk]|exact B]. }
    destruct (skipn _ (key_parts (key_set_sep [] key))) as [|p0 [|p1 rest]].
    + apply Leaf. apply kfine_set_sep, Hk.
    + apply Leaf. exact I.
    + apply tri_ret. intros st B. split; [split; [|exact I]|exact B]. constructor.
      * split; [reflexivity|]. cbn. intros Hx. destruct is_aot; [specialize (Ha eq_refl); congruence|reflexivity].
      * apply nest_ok; auto. cbn. intros. subst indent. auto.
  - intros f k c Hc. cbn [table_loop]. apply tri_end; [apply tri_ret; intros st [_ H]; split; [exact Hc|left; exact H]|].
    eapply tri_bind; [good|eapply tri_pre; [|apply tri_item]|].
    { intros st [[H|H] E]; [congruence|exact H]. }
    intros [[k0 i]|].
    + intros st Hs [[Hk Hi] Hp]. cbn [item_post] in Hp. revert st Hs Hp. match goal with |- forall st, _ -> _ -> match ?m st with _ => _ end =>
        change (tri m lineend (fun c' st => wc c' /\ nextp st)) end.
      apply tri_get. intros x. apply tri_pre with (P := lineend); [tauto|]. destruct (merge_ws i c x) as [c'|] eqn:E.
      * apply IH2. eapply merge_ws_ok; eauto.
      * eapply tri_bind_still with (V := wc); [unfold table_append_m; good|apply still_lift|apply tri_lift, table_raw_append_ok; auto; apply Hi|].
        intros c' Hc'. apply IH2, Hc'.
    + apply tri_cur. intros ch. destruct (N.eqb_spec ch chLBR); [|apply tri_raise].
      apply tri_pre with (P := header_pos); [intros st [[_ H] _]; exact H|].
      eapply tri_bind; [good|apply tri_peek_table|]. intros [ia pk]. cbn [snd].
      destruct (is_child f pk).
      * eapply tri_bind; [good|eapply tri_pre; [|apply IH1]; tauto|]. intros [kk ii].
        intros st Hs [[Hw Hkf] Hn]. cbn [fst snd] in *. revert st Hs Hn. match goal with |- forall st, _ -> _ -> match ?m st with _ => _ end =>
          change (tri m nextp (fun c' st => wc c' /\ nextp st)) end.
        eapply tri_bind_still with (V := wc); [unfold table_append_m; good|apply still_lift|apply tri_lift, table_raw_append_ok; auto; apply kfine_key; exact Hkf|].
        intros c' Hc'. apply IH3, Hc'.
      * apply tri_ret. intros st [_ H]. split; [exact Hc|right; exact H].
  - intros f k c Hc. cbn [siblings]. apply tri_end; [apply tri_ret; intros st [_ H]; split; [exact Hc|left; exact H]|].
    apply tri_pre with (P := header_pos); [intros st [H E]; apply at_end_cases; assumption|].
    eapply tri_bind; [good|apply tri_peek_table|]. intros [ia pk]. cbn [snd].
    destruct (is_child f pk).
    + eapply tri_bind; [good|eapply tri_pre; [|apply IH1]; tauto|]. intros [kk ii].
      intros st Hs [[Hw Hkf] Hn]. cbn [fst snd] in *. revert st Hs Hn. match goal with |- forall st, _ -> _ -> match ?m st with _ => _ end =>
        change (tri m nextp (fun c' st => wc c' /\ nextp st)) end.
      eapply tri_bind_still with (V := wc); [unfold table_append_m; good|apply still_lift|apply tri_lift, table_raw_append_ok; auto; apply kfine_key; exact Hkf|].
      intros c' Hc'. apply IH3, Hc'.
    + apply tri_ret. intros st [_ H]. split; [exact Hc|right; exact H].
  - intros x m k Hna Hx. cbn [parse_aot]. eapply tri_bind; [good|apply IH5; [exact Hna|constructor; [exact Hx|constructor]]|].
    intros l. apply tri_ret. intros st [H1 H2]. split; [apply aot_make_ok; assumption|exact H2].
  - intros l m k Hna Hl. cbn [aot_loop]. apply tri_end; [apply tri_ret; intros st [_ H]; split; [exact Hl|left; exact H]|].
    apply tri_pre with (P := header_pos); [intros st [H E]; apply at_end_cases; assumption|].
    eapply tri_bind; [good|apply tri_peek_table|]. intros [ia pk]. cbn [fst snd].
    destruct (ia && key_eqb pk m).
    + eapply tri_bind; [good|eapply tri_pre; [|apply IH1]; tauto|]. intros [kk ii]. cbn [snd].
      destruct ii as [| | | | | |cc cm|]; try apply tri_raise.
      intros st Hs [[Hw Hkf] Hn]. cbn [fst snd] in *. apply IH5; auto. apply Forall_app. split; [exact Hl|]. constructor; [|constructor].
      apply wfi_table in Hw as [A B]. split; assumption.
    + apply tri_ret. intros st [_ H]. split; [exact Hl|right; exact H].
Qed.
Lemma body_loop_ok n : forall c, wc c -> tri (body_loop strict n c) (fun st => lineend st /\ p_mark st = idx st) (fun c' st => wc c' /\ nextp st).
Proof.
  induction n as [|n IH]; intros c Hc; cbn [body_loop]; [apply tri_raise_exn; exact I|].
  intros st0 Hs0 Hp0. unfold bind at 1, endM. unfold bind at 1, current.
  destruct (at_end st0 || (cur st0 =? chLBR)%N)%bool eqn:E.
  { cbn. split; [exact Hc|]. destruct (at_end st0) eqn:Ee; [left; exact Ee|right]. cbn [orb] in E. apply N.eqb_eq in E.
    destruct Hp0 as [[H|H] Hm]; [congruence|]. unfold cur in E. destruct (p_rest st0) as [|d r] eqn:Er; [discriminate|]. subst.
    exists (p_pre st0), [], r. rewrite app_nil_r. repeat split; auto. constructor. }
  assert (B : bol st0) by (destruct Hp0 as [[H|H] _]; [rewrite H in E; discriminate|exact H]).
  match goal with |- match ?m st0 with _ => _ end => assert (TT : tri m bol (fun c' st => wc c' /\ nextp st)); [|apply TT; auto] end.
  eapply tri_bind; [good|apply tri_item|]. intros [[k i]|]; [|apply tri_ret; intros st [_ H]; split; [exact Hc|right; exact H]].
  intros st Hs [[Hk Hi] Hp]. cbn [item_post] in Hp. revert st Hs Hp. match goal with |- forall st, _ -> _ -> match ?m st with _ => _ end =>
    change (tri m lineend (fun c' st => wc c' /\ nextp st)) end.
  apply tri_get. intros x. apply tri_pre with (P := lineend); [tauto|].
  assert (Mk : forall c', wc c' -> tri (mark;;; body_loop strict n c') lineend (fun c' st => wc c' /\ nextp st)).
  { intros c' Hc'. apply tri_bind with (Q := fun _ st => lineend st /\ p_mark st = idx st); [good| |intros _; apply IH, Hc']. intros st Hs H. cbn. split; [|reflexivity]. exact H. }
  destruct (if match k with Some k => key_is_multi k | None => false end then None else merge_ws i c x) as [c'|] eqn:Em.
  - apply Mk. destruct (match k with Some k => key_is_multi k | None => false end); [discriminate|]. eapply merge_ws_ok; eauto.
  - eapply tri_bind_still with (V := wc); [good|apply still_wrap|apply tri_wrap, cappend_ok; auto; apply Hi|].
    intros c' Hc'. apply Mk, Hc'.
Qed.
Lemma tables_loop_ok n : forall c, wc c -> tri (tables_loop strict n c) nextp (fun c' st => wc c').
Proof.
  induction n as [|n IH]; intros c Hc; cbn [tables_loop]; [apply tri_raise_exn; exact I|].
  apply tri_end; [apply tri_ret; intros st _; exact Hc|].
  pose proof (tabs_all n) as (T1 & _ & _ & T4 & _).
  eapply tri_bind; [good|eapply tri_pre; [|apply T1]; intros st [H E]; apply at_end_cases; assumption|].
  intros [k i]. cbn [fst snd].
  intros st Hs [[Hw Hk] Hn]. cbn [fst snd] in *. revert st Hs Hn. match goal with |- forall st, _ -> _ -> match ?m st with _ => _ end =>
    change (tri m nextp (fun c' st => wc c')) end.
  apply tri_bind with (Q := fun v st => wi v /\ nextp st); [good| |].
  { destruct i as [| | | | | |tc tm|]; try (apply tri_ret; intros; split; assumption).
    destruct (tm_aot tm) eqn:Ea; [|apply tri_ret; intros; split; assumption].
    apply wfi_table in Hw as [W1 W2]. apply T4; [|split; assumption]. destruct W2 as [_ W2]. apply not_true_is_false. intros X. specialize (W2 X). congruence. }
  intros v st Hs [Hv Hn]. revert st Hs Hn. match goal with |- forall st, _ -> _ -> match ?m st with _ => _ end =>
    change (tri m nextp (fun c' st => wc c')) end.
  eapply tri_bind_still with (V := wc); [good|apply still_wrap|apply tri_wrap, cappend_ok; auto; apply kfine_key; exact Hk|].
  intros c' Hc'. apply IH, Hc'.
Qed.
Theorem parse_err_ok e : parse_gen strict s = Err e -> perr e.
Proof.
  unfold parse_gen. intros H.
  assert (TT : tri (parse_doc strict (parse_fuel s)) (fun st => lineend st /\ p_mark st = idx st) (fun _ _ => True)).
  { unfold parse_doc. eapply tri_bind; [good|apply body_loop_ok, wfc_empty|]. intros c st Hs [Hc Hn]. revert st Hs Hn.
    match goal with |- forall st, _ -> _ -> match ?m st with _ => _ end => change (tri m nextp (fun _ _ => True)) end.
    eapply tri_bind; [good|apply tables_loop_ok, Hc|]. intros c'. apply tri_ret. auto. }
  specialize (TT (start s) eq_refl). destruct (parse_doc strict (parse_fuel s) (start s)) as [[c|e0] st]; cbn [fst] in H; [discriminate|].
  inversion H; subst. apply TT. split; [right; left; reflexivity|reflexivity].
Qed.
End Errors.
