(** Text: what a successful read of a token consumed (towards C01, C09). *)
From Verif Require Import Base Source Utils Items Container Arrays Parser Api Lemmas Escape Strings StringRT StringApi Numbers Reader.
From Coq Require Import ZifyBool ZifyNat ZifyN.
Open Scope nat_scope.

(** [st'] is further than [st] by exactly [w]. *)
Definition adds (w : str) (st st' : pst) : Prop := p_pre st' = p_pre st ++ w.
(** The marker is [w] behind the reader. *)
Definition marked (w : str) (st : pst) : Prop := exists X, p_pre st = X ++ w /\ p_mark st = List.length X.

Lemma adds_refl st st' : p_pre st' = p_pre st -> adds [] st st'.
Proof. intros H. unfold adds. rewrite app_nil_r. exact H. Qed.
Lemma adds_trans w1 w2 a b c : adds w1 a b -> adds w2 b c -> adds (w1 ++ w2) a c.
Proof. unfold adds. intros H1 H2. rewrite H2, H1, app_assoc. reflexivity. Qed.
Lemma moved_adds w st st' : moved w st st' -> adds w st st'.
Proof. intros [_ H]. exact H. Qed.
Lemma adds_inj w w' st st' : adds w st st' -> adds w' st st' -> w = w'.
Proof. unfold adds. intros H1 H2. rewrite H1 in H2. apply app_inv_head in H2. exact H2. Qed.
Lemma marked_extract w st : marked w st -> extract st = w.
Proof. intros (X & H1 & H2). unfold extract. rewrite H1, H2. apply skipn_length_app. Qed.
Lemma marked_adds w u st st' : marked w st -> adds u st st' -> p_mark st' = p_mark st -> marked (w ++ u) st'.
Proof. intros (X & H1 & H2) H3 H4. exists X. rewrite H3, H1, app_assoc, H4. auto. Qed.
Lemma marked_same w w' st : marked w st -> marked w' st -> w = w'.
Proof. intros A B. rewrite <- (marked_extract _ _ A). apply marked_extract, B. Qed.
Lemma marked_le w st : marked w st -> p_mark st <= idx st.
Proof. intros (X & H1 & H2). unfold idx. rewrite H1, app_length. lia. Qed.
Lemma le_marked st : p_mark st <= idx st -> marked (extract st) st.
Proof.
  intros H. exists (firstn (p_mark st) (p_pre st)). unfold extract, idx in *. rewrite firstn_skipn, firstn_length_le by lia. auto.
Qed.
Lemma set_mark_marked st : marked [] (set_mark st).
Proof. exists (p_pre st). cbn. rewrite app_nil_r. auto. Qed.

(** Computations that do not touch the marker. *)
Definition keeps {A} (m : M A) : Prop := forall st, p_mark (snd (m st)) = p_mark st.
Lemma keeps_ret {A} (a : A) : keeps (ret a). Proof. intros st. reflexivity. Qed.
Lemma keeps_raise {A} k : keeps (@raise A k). Proof. intros st. reflexivity. Qed.
Lemma keeps_raise_exn {A} k : keeps (@raise_exn A k). Proof. intros st. reflexivity. Qed.
Lemma keeps_get : keeps get. Proof. intros st. reflexivity. Qed.
Lemma keeps_lift {A} (r : res A) : keeps (lift r). Proof. intros st. reflexivity. Qed.
Lemma keeps_extract : keeps extractM. Proof. intros st. reflexivity. Qed.
Lemma keeps_current : keeps current. Proof. intros st. reflexivity. Qed.
Lemma keeps_end : keeps endM. Proof. intros st. reflexivity. Qed.
Lemma inc_mark st : p_mark (snd (inc st)) = p_mark st. Proof. destruct st as [pre [|c r] mk]; reflexivity. Qed.
Lemma keeps_inc : keeps incM. Proof. intros st. unfold incM. pose proof (inc_mark st). destruct (inc st); exact H. Qed.
Lemma keeps_inc_exn k : keeps (inc_exn k). Proof. intros st. unfold inc_exn. pose proof (inc_mark st). destruct (inc st) as [[|] s]; exact H. Qed.
Lemma inc_n_mark n : forall st, p_mark (snd (inc_n n st)) = p_mark st.
Proof. induction n as [|n IH]; intros st; cbn [inc_n]; [reflexivity|]. pose proof (inc_mark st). destruct (inc st) as [[|] s]; cbn [snd] in *; [rewrite IH|]; exact H. Qed.
Lemma keeps_inc_n n : keeps (inc_nM n). Proof. intros st. unfold inc_nM. pose proof (inc_n_mark n st). destruct (inc_n n st); exact H. Qed.
Lemma keeps_adv p : keeps (adv_whileM p). Proof. intros st. reflexivity. Qed.
Lemma keeps_peek n : keeps (peek n). Proof. intros st. reflexivity. Qed.
Lemma keeps_since n : keeps (since n). Proof. intros st. reflexivity. Qed.
Lemma keeps_idx : keeps idxM. Proof. intros st. reflexivity. Qed.
Lemma keeps_bind {A B} (m : M A) (f : A -> M B) : keeps m -> (forall a, keeps (f a)) -> keeps (bind m f).
Proof. intros Hm Hf st. unfold bind. pose proof (Hm st). destruct (m st) as [[a|e] s]; cbn [snd] in *; [rewrite Hf|]; exact H. Qed.
Lemma keeps_restoring_all {A} (m : M A) : keeps (restoring_all m). Proof. intros st. unfold restoring_all. destruct (m st). reflexivity. Qed.
Lemma keeps_restoring {A} (m : M A) : keeps m -> keeps (restoring m).
Proof. intros H st. unfold restoring. specialize (H st). destruct (m st). exact H. Qed.
Lemma keeps_inc_n_exn n k : keeps (inc_n_exn n k).
Proof. induction n; cbn [inc_n_exn]; [apply keeps_ret|]. apply keeps_bind; [apply keeps_inc_exn|intros _; exact IHn]. Qed.
Global Hint Resolve keeps_ret keeps_raise keeps_raise_exn keeps_get keeps_lift keeps_extract keeps_current keeps_end keeps_inc keeps_inc_exn
  keeps_inc_n keeps_adv keeps_peek keeps_since keeps_idx keeps_restoring_all keeps_inc_n_exn : keeps.
Ltac keeps :=
  repeat (first [ solve [auto with keeps] | apply keeps_bind; [|intros ?] | apply keeps_restoring
                | match goal with |- keeps (match ?x with _ => _ end) => destruct x end | progress cbv zeta ]).
Lemma keeps_skip_ws : keeps skip_ws_exn.
Proof. intros st. unfold skip_ws_exn. destruct (_ && _); reflexivity. Qed.
Lemma keeps_peek_unicode b : keeps (peek_unicode b).
Proof. apply keeps_restoring_all. Qed.
Global Hint Resolve keeps_skip_ws keeps_peek_unicode : keeps.
Lemma keeps_escaped b : keeps (parse_escaped_char b).
Proof. unfold parse_escaped_char. keeps. Qed.
Lemma keeps_skip_nl : keeps skip_first_newline.
Proof. unfold skip_first_newline. keeps. Qed.
Global Hint Resolve keeps_escaped keeps_skip_nl : keeps.

(** A good computation that keeps the marker moves the marked text on. *)
Lemma marked_on {A} (m : M A) w st r st' : good m -> keeps m -> marked w st -> m st = (r, st') ->
  exists u, adds u st st' /\ marked (w ++ u) st'.
Proof.
  intros Hg Hk Hm E. destruct (Hg st) as [u Hu]. specialize (Hk st). rewrite E in *. cbn [snd] in *. apply moved_adds in Hu.
  exists u. split; [exact Hu|]. eapply marked_adds; eauto.
Qed.
Ltac bi H a st E := apply bind_inv in H as (a & st & E & H).
Ltac bix H :=
  lazymatch type of H with
  | bind mark ?f ?s = ?r => change (f tt (set_mark s) = r) in H
  | bind extractM ?f ?s = ?r => change (f (extract s) s = r) in H
  | bind current ?f ?s = ?r => change (f (cur s) s = r) in H
  | bind endM ?f ?s = ?r => change (f (at_end s) s = r) in H
  | bind get ?f ?s = ?r => change (f s s = r) in H
  | bind (ret ?a) ?f ?s = ?r => change (f a s = r) in H
  | bind idxM ?f ?s = ?r => change (f (idx s) s = r) in H
  | bind (since ?a) ?f ?s = ?r => change (f (skipn a (p_pre s)) s = r) in H
  | bind (adv_whileM ?p) ?f ?s = ?r => change (f tt (adv_while p s) = r) in H
  end; cbv beta in H.

Lemma incM_inv st b st' : incM st = (Ok b, st') -> (p_rest st = [] /\ st' = st) \/ exists c r, p_rest st = c :: r /\ st' = mkSt (p_pre st ++ [c]) r (p_mark st).
Proof. destruct st as [pre [|c r] mk]; unfold incM; cbn; intros H; inversion H; subst; [auto|right; eauto]. Qed.
Lemma inc_exn_inv k st b st' : inc_exn k st = (Ok b, st') -> exists c r, p_rest st = c :: r /\ r <> [] /\ st' = mkSt (p_pre st ++ [c]) r (p_mark st).
Proof.
  destruct st as [pre [|c r] mk]; unfold inc_exn; cbn; intros H; [discriminate|]. destruct r; [discriminate|]. inversion H; subst.
  exists c, (n :: r). repeat split. discriminate.
Qed.
Lemma cur_cons st c : cur st = c -> c <> chNUL -> exists r, p_rest st = c :: r.
Proof. unfold cur. destruct (p_rest st) as [|x r]; [congruence|]. intros -> _. eauto. Qed.
Lemma incM_adds st b st' c : incM st = (Ok b, st') -> cur st = c -> c <> chNUL -> adds [c] st st' /\ p_mark st' = p_mark st.
Proof.
  intros H Hc Hn. destruct (cur_cons st c Hc Hn) as [r Hr]. apply incM_inv in H as [[H _]|(x & r' & H & ->)]; rewrite Hr in H; [discriminate|].
  inversion H; subst. split; reflexivity.
Qed.
Lemma inc_exn_adds k st b st' c : inc_exn k st = (Ok b, st') -> cur st = c -> adds [c] st st' /\ p_mark st' = p_mark st.
Proof. intros H Hc. apply inc_exn_inv in H as (x & r & H & _ & ->). unfold cur in Hc. rewrite H in Hc. subst. split; reflexivity. Qed.

(** ** Strings *)
Lemma unit_nonnul d : st_unit d <> chNUL. Proof. destruct d; discriminate. Qed.
Lemma take_unit u s : exists k, take_while (fun x => x =? u)%N s = repeat u k.
Proof.
  induction s as [|c s [k IH]]; cbn [take_while]; [exists 0; reflexivity|]. destruct (N.eqb_spec c u) as [->|]; [|exists 0; reflexivity].
  exists (S k). cbn. rewrite IH. reflexivity.
Qed.
Lemma firstn_repeat' {A} (x : A) j k : j <= k -> firstn j (repeat x k) = repeat x j.
Proof. revert j; induction k as [|k IH]; intros [|j] H; try reflexivity; [lia|]. cbn. rewrite IH by lia. reflexivity. Qed.
Lemma repeat_split {A} (x : A) a b : repeat x (a + b) = repeat x a ++ repeat x b.
Proof. apply repeat_app. Qed.
Lemma st_value_repeat d : st_value d = repeat (st_unit d) (if st_multiline d then 3 else 1).
Proof. destruct d; reflexivity. Qed.

Lemma string_loop_text n : forall d v e w st t v' o st', marked w st -> string_loop n d v e st = (Ok (SStr t v' o), st') ->
  t = d /\ exists u, adds u st st' /\ w ++ u = o ++ st_value d.
Proof.
  induction n as [|n IH]; intros d v e w st t v' o st' Hm H; cbn [string_loop] in H; [discriminate|].
  bix H. destruct (negb e && bad_string_char _ _); [discriminate|].
  assert (Rec : forall (m : M unit) v1 e1, good m -> keeps m -> bind m (fun _ => string_loop n d v1 e1) st = (Ok (SStr t v' o), st') ->
    t = d /\ exists u, adds u st st' /\ w ++ u = o ++ st_value d).
  { intros m v1 e1 Hg Hk E. bi E u s1 Q1. destruct (marked_on m w st (Ok u) s1 Hg Hk Hm Q1) as (x & X1 & X2).
    destruct (IH _ _ _ _ _ _ _ _ _ X2 E) as [-> (y & Y1 & Y2)]. split; [reflexivity|]. exists (x ++ y).
    split; [eapply adds_trans; eauto|]. rewrite app_assoc. exact Y2. }
  destruct (negb e && _) eqn:Eq.
  - apply andb_true_iff in Eq as [_ Eq]. apply N.eqb_eq in Eq. rewrite bind_ok with (a := extract st) (st1 := st) in H by reflexivity.
    rewrite (marked_extract _ _ Hm) in H. pose proof (st_value_repeat d) as SV. destruct (st_multiline d) eqn:Eml.
    + rewrite bind_ok with (a := st) (st1 := st) in H by reflexivity. cbv zeta in H.
      set (p := fun x => (x =? st_unit d)%N) in *. bi H x s1 Q1.
      assert (X : adds (take_while p (p_rest st)) st s1 /\ marked (w ++ take_while p (p_rest st)) s1).
      { inversion Q1; subst. split; [reflexivity|]. eapply marked_adds; [exact Hm|reflexivity|reflexivity]. }
      clear Q1. destruct X as [X1 X2]. destruct (take_unit (st_unit d) (p_rest st)) as [k Ek]. fold p in Ek. rewrite Ek in *.
      rewrite repeat_length in H. destruct (Nat.ltb_spec k 3).
      * destruct (IH _ _ _ _ _ _ _ _ _ X2 H) as [-> (y & Y1 & Y2)]. split; [reflexivity|]. eexists. split; [eapply adds_trans; eauto|].
        rewrite app_assoc. exact Y2.
      * destruct (Nat.eqb_spec k 3).
        -- inversion H; subst. split; [reflexivity|]. eexists. split; [exact X1|]. rewrite SV. reflexivity.
        -- destruct (Nat.leb 6 k); [bix H; discriminate|]. inversion H; subst. split; [reflexivity|]. eexists. split; [exact X1|].
           rewrite SV, <- app_assoc, firstn_repeat' by lia. rewrite <- repeat_split. do 2 f_equal. lia.
    + bi H b s1 Q1. inversion H; subst. destruct (incM_adds _ _ _ _ Q1 Eq (unit_nonnul t)) as [X1 X2]. split; [reflexivity|].
      eexists. split; [exact X1|]. rewrite SV. reflexivity.
  - destruct (st_basic d && e).
    + bi H u s1 Q1. destruct (marked_on (parse_escaped_char (st_multiline d)) w st (Ok u) s1) as (x & X1 & X2); [auto with good|auto with keeps|exact Hm|exact Q1|].
      destruct (IH _ _ _ _ _ _ _ _ _ X2 H) as [-> (y & Y1 & Y2)]. split; [reflexivity|]. exists (x ++ y).
      split; [eapply adds_trans; eauto|]. rewrite app_assoc. exact Y2.
    + destruct (st_basic d && _); apply Rec in H; auto with good keeps.
Qed.
Lemma toggle_unit d : st_unit (st_toggle d) = st_unit d. Proof. destruct d; reflexivity. Qed.
Lemma toggle_ml d : st_multiline (st_toggle d) = negb (st_multiline d). Proof. destruct d; reflexivity. Qed.

(** A string token is kept verbatim. *)
Lemma parse_string_text n d st v st' : st_multiline d = false -> parse_string n d st = (Ok v, st') -> adds (scalar_string v) st st'.
Proof.
  intros Hd H. pose proof (sat_parse_string n d _ _ _ H) as Hs. destruct v as [| | | | | |t v' o]; try contradiction. clear Hs.
  unfold parse_string in H. bix H. destruct (N.eqb_spec (cur st) (st_unit d)) as [Ec|]; cbn [negb] in H; [|discriminate].
  bi H x s1 Q1. destruct (inc_exn_adds _ _ _ _ _ Q1 Ec) as [X1 _]. clear Q1.
  bix H. bi H od s2 Q2.
  assert (D : (od = None /\ adds [st_unit d] s1 s2) \/ (od = Some d /\ adds [] s1 s2) \/ (od = Some (st_toggle d) /\ adds [st_unit d; st_unit d] s1 s2)).
  { destruct (N.eqb_spec (cur s1) (st_unit d)) as [Ec1|].
    - bi Q2 b s3 Q3. destruct (incM_adds _ _ _ _ Q3 Ec1 (unit_nonnul d)) as [Y1 _]. bix Q2. destruct b; cbn [negb orb] in Q2.
      2:{ inversion Q2; subst. auto. }
      destruct (N.eqb_spec (cur s3) (st_unit d)) as [Ec3|]; cbn [negb] in Q2; [|inversion Q2; subst; auto].
      bi Q2 y s4 Q4. inversion Q2; subst. destruct (inc_exn_adds _ _ _ _ _ Q4 Ec3) as [Z1 _]. right; right. split; [reflexivity|].
      apply (adds_trans _ _ _ _ _ Y1 Z1).
    - inversion Q2; subst. right; left. split; [reflexivity|]. apply adds_refl. reflexivity. }
  clear Q2. destruct D as [[-> D]|D].
  - inversion H; subst. cbn [scalar_string app]. rewrite st_value_repeat, Hd. apply (adds_trans _ _ _ _ _ X1 D).
  - assert (K : exists d', od = Some d' /\ adds (st_value d') st s2).
    { destruct D as [[-> D]|[-> D]].
      - exists d. split; [reflexivity|]. rewrite st_value_repeat, Hd. pose proof (adds_trans _ _ _ _ _ X1 D) as T. exact T.
      - exists (st_toggle d). split; [reflexivity|]. rewrite st_value_repeat, toggle_unit, toggle_ml, Hd. apply (adds_trans _ _ _ _ _ X1 D). }
    destruct K as (d' & -> & K). clear D. bix H. bi H y s3 Q3.
    destruct (marked_on (if st_multiline d' then skip_first_newline else ret tt) [] (set_mark s2) (Ok y) s3) as (u1 & U1 & U2);
      [destruct (st_multiline d'); auto with good|destruct (st_multiline d'); auto with keeps|apply set_mark_marked|exact Q3|].
    destruct (string_loop_text _ _ _ _ _ _ _ _ _ _ U2 H) as [-> (u & W1 & W2)]. cbn [app] in W2. cbn [scalar_string].
    rewrite <- W2. eapply adds_trans; [exact K|]. eapply adds_trans; [|exact W1]. exact U1.
Qed.

(** ** Keys, separators, comments *)
Lemma mark_read {A} (m : M A) st r st' : good m -> keeps m -> m (set_mark st) = (r, st') -> adds (extract st') st st' /\ marked (extract st') st'.
Proof.
  intros Hg Hk H. destruct (marked_on m [] (set_mark st) r st' Hg Hk (set_mark_marked st) H) as (u & U1 & U2). cbn [app] in U2.
  rewrite (marked_extract _ _ U2). split; [exact U1|exact U2].
Qed.
Definition skey_fresh (k : skey) : Prop := k_dotted k = false /\ k_sep k = [].
Definition key_fresh (k : key) : Prop :=
  key_string k = origs (key_parts k) /\ Forall skey_fresh (key_parts k) /\ key_parts k <> []
  /\ match k with KDotted ks _ _ => 2 <= List.length ks | _ => True end.
Lemma join_app sep (a b : list str) : a <> [] -> b <> [] -> join sep (a ++ b) = join sep a ++ sep ++ join sep b.
Proof.
  intros Ha Hb. induction a as [|x a IH]; [congruence|]. destruct a as [|y a].
  - cbn [app join]. destruct b; [congruence|reflexivity].
  - change ((x :: y :: a) ++ b) with (x :: (y :: a ++ b)). change (join sep (x :: y :: a ++ b)) with (x ++ sep ++ join sep ((y :: a) ++ b)).
    rewrite IH by discriminate. change (join sep (x :: y :: a)) with (x ++ sep ++ join sep (y :: a)). rewrite <- !app_assoc. reflexivity.
Qed.
Lemma parse_key_text n : forall st k st', parse_key n st = (Ok k, st') -> adds (key_string k) st st' /\ key_fresh k.
Proof.
  induction n as [|n IH]; intros st k st' H; cbn [parse_key] in H; [discriminate|].
  bix H. bix H. bix H. set (s0 := adv_while is_spaces (set_mark st)) in *.
  assert (M0 : adds (extract s0) st s0 /\ marked (extract s0) s0) by (apply (mark_read (adv_whileM is_spaces) st (Ok tt)); auto with good keeps).
  destruct M0 as [M0 M1]. bi H k1 s1 Q1.
  assert (K : adds (k_orig k1) st s1 /\ skey_fresh k1).
  { destruct (is_quote (cur s0)) eqn:Eq.
    - bix Q1. cbv zeta in Q1. bi Q1 v s2 Q2.
      assert (X : adds (scalar_string v) s0 s2) by (eapply parse_string_text; [|exact Q2]; destruct (_ =? _)%N; reflexivity).
      clear Q2. destruct v as [| | | | | |d v o]; try discriminate. destruct (st_multiline d); [discriminate|]. bix Q1. bix Q1. bix Q1.
      assert (Y : adds (extract (adv_while is_spaces (set_mark s2))) s2 (adv_while is_spaces (set_mark s2)))
        by (apply (mark_read (adv_whileM is_spaces) s2 (Ok tt)); auto with good keeps).
      set (s3 := adv_while _ (set_mark s2)) in *. inversion Q1; subst. split; [|split; reflexivity]. cbn [k_orig].
      eapply adds_trans; [exact M0|]. eapply adds_trans; [exact X|exact Y].
    - bix Q1. bix Q1. set (s2 := adv_while _ s0) in *. destruct (marked_on (adv_whileM (fun c => is_bare_key_char c || is_spaces c)) (extract s0) s0 (Ok tt) s2) as (u & U1 & U2);
        [auto with good|auto with keeps|exact M1|reflexivity|]. rewrite (marked_extract _ _ U2) in Q1. cbv zeta in Q1.
      destruct (strip _); [discriminate|]. destruct (inb _ _); [discriminate|]. inversion Q1; subst. split; [|split; reflexivity]. cbn [k_orig].
      eapply adds_trans; [exact M0|exact U1]. }
  clear Q1 M0 M1. destruct K as [K F]. bix H. destruct (N.eqb_spec (cur s1) chDOT) as [Ed|].
  - bi H b s2 Q2. destruct (incM_adds _ _ _ _ Q2 Ed) as [X _]; [discriminate|]. bi H k2 s3 Q3. inversion H; subst.
    destruct (IH _ _ _ Q3) as (Y & Y1 & Y2 & Y3 & Y4). assert (E : key_string (key_concat (KSingle k1) k2) = k_orig k1 ++ [chDOT] ++ key_string k2).
    { unfold key_concat. cbn [key_string dotted_of key_parts]. rewrite map_app, join_app; [|discriminate|destruct (key_parts k2); [congruence|discriminate]].
      rewrite Y1. reflexivity. }
    split; [rewrite E; eapply adds_trans; [exact K|]; eapply adds_trans; [exact X|exact Y]|].
    unfold key_concat, dotted_of. cbn [key_parts]. split; [reflexivity|]. split; [constructor; assumption|]. split; [discriminate|].
    cbn [app List.length]. destruct (key_parts k2); [congruence|cbn; lia].
  - inversion H; subst. split; [exact K|]. split; [reflexivity|]. split; [constructor; [exact F|constructor]|]. split; [discriminate|exact I].
Qed.
Lemma sep_loop_mark rest : forall pre mk f, p_mark (snd (sep_loop rest pre mk f)) = mk.
Proof.
  induction rest as [|c r IH]; intros; cbn [sep_loop]; [reflexivity|]. destruct (is_kv_sep c); [|reflexivity]. destruct r as [|d r']; [reflexivity|].
  destruct (d =? chEQ)%N; [destruct f; [reflexivity|]|]; apply IH.
Qed.
Lemma parse_sep_text st w st' : parse_sep st = (Ok w, st') -> adds w st st'.
Proof.
  unfold parse_sep. intros H. bix H. bix H. bi H f s1 Q1. bix H. destruct (negb f); [discriminate|]. inversion H; subst.
  apply (mark_read (fun st => sep_loop (p_rest st) (p_pre st) (p_mark st) (cur (set_mark st) =? chEQ)%N) st (Ok f)).
  - intros [pre rest mk]. apply sep_loop_moves.
  - intros [pre rest mk]. apply sep_loop_mark.
  - exact Q1.
Qed.
Lemma keeps_trail : keeps parse_trail. Proof. unfold parse_trail. keeps. Qed.
Lemma trail_text st w r st' : marked w st -> parse_trail st = (Ok r, st') -> exists u, adds u st st' /\ r = w ++ u.
Proof.
  intros Hm H. destruct (marked_on parse_trail w st (Ok r) st') as (u & U1 & U2); [auto with good|apply keeps_trail|exact Hm|exact H|].
  exists u. split; [exact U1|]. rewrite <- (marked_extract _ _ U2). unfold parse_trail in H. bix H. bix H. bi H a s1 Q1. bix H. bi H a2 s2 Q2.
  inversion H; subst. reflexivity.
Qed.
Lemma comment_trail_text b st r st' : parse_comment_trail b st = (Ok r, st') -> b = true \/ cur st = chHASH ->
  adds (fst (fst r) ++ snd (fst r) ++ snd r) st st' /\ (cur st = chHASH -> fst (fst r) = [])
  /\ (b = false -> snd r = [] /\ (p_rest st' = [] \/ exists c x, p_rest st' = c :: x /\ is_nl c = true)).
Proof.
  unfold parse_comment_trail. intros H Hb. bix H. destruct (at_end st) eqn:Ee.
  { inversion H; subst. cbn [fst snd app]. split; [apply adds_refl; reflexivity|]. split; [reflexivity|]. intros _. split; [reflexivity|]. left.
    unfold at_end in Ee. destruct (p_rest st'); [reflexivity|discriminate]. }
  bix H. bix H. bix H. bix H. set (s0 := adv_while is_blank (set_mark st)) in *.
  assert (M0 : adds (extract s0) st s0 /\ marked (extract s0) s0) by (apply (mark_read (adv_whileM is_blank) st (Ok tt)); auto with good keeps).
  assert (HH : cur st = chHASH -> s0 = set_mark st).
  { intros Hc. destruct (cur_cons st _ Hc) as [r0 Hr]; [discriminate|]. unfold s0, adv_while. destruct st as [pre rest mk]. cbn in Hr. subst rest.
    cbn. rewrite app_nil_r. reflexivity. }
  destruct M0 as [M0 M1]. bi H cc s1 Q1. destruct cc as [cws comment].
  assert (K : exists w, marked w s1 /\ adds (cws ++ comment ++ w) st s1 /\ (cur st = chHASH -> cws = [] /\ w = [] /\
     (p_rest s1 = [] \/ exists c x, p_rest s1 = c :: x /\ is_nl c = true))).
  { destruct (at_end s0 || (cur s0 =? chLF)%N) eqn:E0.
    { assert (Y : cws = [] /\ comment = [] /\ s1 = s0) by (inversion Q1; auto). destruct Y as (-> & -> & ->). exists (extract s0). split; [exact M1|]. split; [exact M0|]. intros Hc. exfalso. rewrite (HH Hc) in E0.
      unfold at_end, cur in E0. unfold cur in Hc. cbn [set_mark p_rest] in E0. destruct (p_rest st); [discriminate Hc|]. subst. discriminate. }
    destruct (N.eqb_spec (cur s0) chHASH) as [Eh|]; [|discriminate].
    bix Q1. bix Q1. bi Q1 bb s2 Q2. bix Q1. bix Q1. bix Q1. set (p := fun c => negb (is_nl c) && negb (bad_comment_char c)) in *.
    destruct (incM_adds _ _ _ _ Q2 Eh) as [I1 I2]; [discriminate|].
    assert (M2 : marked [chHASH] s2) by (apply (marked_adds [] [chHASH] (set_mark s0)); [apply set_mark_marked|exact I1|exact I2]).
    destruct (marked_on (adv_whileM p) [chHASH] s2 (Ok tt) (adv_while p s2)) as (u & U1 & U2); [auto with good|auto with keeps|exact M2|reflexivity|].
    set (s3 := adv_while p s2) in *. bi Q1 x s4 Q3.
    assert (X : s4 = s3 /\ (at_end s3 = true \/ is_nl (cur s3) = true)).
    { destruct (at_end s3 || is_nl (cur s3)) eqn:E3; [|discriminate]. inversion Q3; subst. split; [reflexivity|]. apply orb_true_iff in E3. exact E3. }
    clear Q3. destruct X as [-> X]. bix Q1. bix Q1. inversion Q1; subst cws comment s1. clear Q1. exists [].
    split; [apply set_mark_marked|]. rewrite (marked_extract _ _ U2). rewrite app_nil_r. split.
    - eapply adds_trans; [exact M0|]. pose proof (adds_trans _ _ _ _ _ I1 U1) as T. exact T.
    - intros Hc. split; [rewrite (HH Hc); apply (marked_extract [] _), set_mark_marked|]. split; [reflexivity|]. cbn [set_mark p_rest].
      destruct X as [X|X].
      + left. unfold at_end in X. destruct (p_rest s3); [reflexivity|discriminate].
      + unfold cur in X. destruct (p_rest s3) as [|c x0]; [left; reflexivity|right; eauto]. }
  clear Q1 M0 M1. destruct K as (w & W1 & W2 & W3). bi H tr s2 Q2. inversion H; subst. cbn [fst snd]. destruct b.
  - destruct (trail_text _ _ _ _ W1 Q2) as (u & U1 & ->). split; [|split; [intros Hc; apply W3, Hc|discriminate]].
    rewrite !app_assoc. rewrite <- (app_assoc cws). eapply adds_trans; [exact W2|exact U1].
  - inversion Q2; subst. destruct Hb as [|Hb]; [discriminate|]. destruct (W3 Hb) as (A & B & C). subst. split; [exact W2|]. auto.
Qed.

(** ** Scalars *)
Lemma rstrip_split p s : s = rstrip_p p s ++ skipn (List.length (rstrip_p p s)) s.
Proof.
  unfold rstrip_p. assert (E : s = rev (drop_while p (rev s)) ++ rev (take_while p (rev s))).
  { rewrite <- rev_app_distr, take_drop, rev_involutive. reflexivity. }
  revert E. generalize (rev (drop_while p (rev s))) (rev (take_while p (rev s))). intros a b ->. rewrite skipn_length_app. reflexivity.
Qed.
(** Text whose last character is no comma. *)
Definition lastc (s : str) : Prop := exists a c, s = a ++ [c] /\ c <> chCOMMA.
Lemma lastc_app a s : lastc s -> lastc (a ++ s).
Proof. intros (x & c & -> & H). exists (a ++ x), c. rewrite app_assoc. auto. Qed.
Lemma lastc_all s : s <> [] -> Forall (fun c => c <> chCOMMA) s -> lastc s.
Proof.
  intros Hn Hf. destruct (exists_last Hn) as (a & c & ->). exists a, c. split; [reflexivity|]. apply Forall_app in Hf as [_ Hf]. inversion Hf; auto.
Qed.
Lemma parse_number_raw raw v : parse_number raw = Some v -> scalar_string v = raw /\ raw <> [].
Proof.
  intros H. split.
  - unfold parse_number in H. destruct (match raw with [] => ([], []) | c :: r => if ((c =? chPLUS) || (c =? chMINUS))%N then ([c], r) else ([], raw) end) as [sg r] eqn:Es.
    assert (E : sg ++ r = raw).
    { destruct raw as [|c raw]; [inversion Es; reflexivity|]. destruct (_ || _)%N; inversion Es; reflexivity. }
    repeat match type of H with context [if ?x then _ else _] => destruct x; [discriminate|] end.
    destruct (py_int _ _); [inversion H; subst; reflexivity|]. destruct (py_float _); inversion H; subst. reflexivity.
  - intros ->. vm_compute in H. discriminate.
Qed.
Definition value_item (i : item) : Prop :=
  match i with IVal _ _ => True | IArray _ _ ml => ml = false | IInline _ _ new => new = false | _ => False end.
(** What a successful read of a value leaves: its text, with the blanks that were
    read behind a date. *)
Definition read_value (v : item) (st st' : pst) : Prop :=
  adds (item_string v ++ tr_cws (item_trivia v)) st st' /\ value_item v /\ tr_indent (item_trivia v) = [] /\ tr_comment (item_trivia v) = []
  /\ lastc (item_string v).
Lemma not_delim_nocomma s : Forall (fun c => negb (is_val_delim c) = true) s -> Forall (fun c => c <> chCOMMA) s.
Proof. intros H. eapply Forall_impl; [|exact H]. cbn. intros c Hc ->. discriminate. Qed.
Lemma number_text raw st0 st v st' : adds raw st0 st -> Forall (fun c => negb (is_val_delim c) = true) raw ->
  match parse_number raw with Some v => ret (scalar_item v) | None => raise KInvalidNumber end st = (Ok v, st') -> read_value v st0 st'.
Proof.
  intros Ha Hf H. destruct (parse_number raw) as [s|] eqn:En; [|discriminate]. inversion H; subst. apply parse_number_raw in En as [Es Hn].
  split; [|repeat split].
  - cbn [scalar_item item_string item_trivia default_trivia tr_cws]. rewrite app_nil_r, Es. exact Ha.
  - cbn [scalar_item item_string]. rewrite Es. apply lastc_all; [exact Hn|]. apply not_delim_nocomma, Hf.
Qed.
Lemma take_extract p st : extract (adv_while p (set_mark st)) = take_while p (p_rest st) /\ adds (take_while p (p_rest st)) st (adv_while p (set_mark st)).
Proof. split; [unfold extract; cbn; apply skipn_length_app|reflexivity]. Qed.
Lemma signed_text st v st' : parse_signed_value (set_mark st) = (Ok v, st') -> read_value v st st'.
Proof.
  unfold parse_signed_value. intros H. bix H. bix H. destruct (take_extract (fun c => negb (is_val_delim c)) st) as [X1 X2]. rewrite X1 in H.
  eapply number_text; [exact X2|apply take_while_all|exact H].
Qed.
Lemma loose_nonempty raw a b : loose_match raw = Some (a, b) -> a || b = true -> raw <> [].
Proof. intros H K ->. vm_compute in H. inversion H; subst. discriminate. Qed.
Lemma value_error_inv {A} k (r : res A) st a st' : value_error k r st = (Ok a, st') -> r = Ok a /\ st' = st.
Proof. destruct r as [x|[]]; cbn [value_error]; intros H; inversion H; auto. Qed.
Lemma digit_text st v st' : parse_digit_value (set_mark st) = (Ok v, st') -> read_value v st st'.
Proof.
  unfold parse_digit_value. intros H. bix H. bix H. set (p := fun c => negb (is_val_delim c)) in *. destruct (take_extract p st) as [X1 X2]. rewrite X1 in H.
  set (raw := take_while p (p_rest st)) in *. assert (Hf : Forall (fun c => negb (is_val_delim c) = true) raw) by apply take_while_all.
  set (s1 := adv_while p (set_mark st)) in *. assert (Hn := number_text raw st s1 v st' X2 Hf).
  assert (Hl : raw <> [] -> lastc raw) by (intros; apply lastc_all; [assumption|apply not_delim_nocomma, Hf]).
  clearbody raw s1. clear X1 p.
  assert (Sc : forall sc, scalar_string sc = raw -> raw <> [] -> read_value (scalar_item sc) st s1).
  { intros sc Es Hr. split; [|repeat split].
    - cbn [scalar_item item_string item_trivia default_trivia tr_cws]. rewrite app_nil_r, Es. exact X2.
    - cbn [scalar_item item_string]. rewrite Es. auto. }
  destruct (loose_match raw) as [[[|] [|]]|] eqn:El; try (apply Hn; exact H); apply loose_nonempty in El; try reflexivity; specialize (Hl El).
  - bi H dt s2 Q1. apply value_error_inv in Q1 as [_ ->]. destruct dt; try discriminate. inversion H; subst. apply Sc; auto.
  - bi H dt s2 Q1. apply value_error_inv in Q1 as [_ ->]. destruct dt; try discriminate. bix H. bix H. bix H.
    set (q := fun c => negb (is_date_stop c)) in *. destruct (take_extract q s1) as [Y1 Y2]. rewrite Y1 in H. set (tr := take_while q (p_rest s1)) in *.
    assert (Ft : Forall (fun c => c <> chCOMMA) tr).
    { eapply Forall_impl; [|apply (take_while_all q)]. cbn. intros c Hc ->. discriminate. }
    set (s2 := adv_while q (set_mark s1)) in *. clearbody s2. clearbody tr. clear Y1. cbv zeta in H.
    pose proof (rstrip_split py_isspace tr) as Et. fold (rstrip tr) in Et. destruct (rstrip tr) as [|c0 tp] eqn:Er.
    + inversion H; subst. split; [|repeat split; exact Hl]. cbn [item_string scalar_string item_trivia tr_cws List.length skipn].
      eapply adds_trans; [exact X2|exact Y2].
    + assert (Nn : c0 :: tp <> []) by discriminate. set (tp' := c0 :: tp) in *. clearbody tp'. bi H dt s3 Q3. apply value_error_inv in Q3 as [_ ->]. destruct dt; try discriminate. inversion H; subst.
      split; [|repeat split].
      * cbn [item_string scalar_string item_trivia tr_cws]. rewrite <- app_assoc, <- Et. eapply adds_trans; [exact X2|exact Y2].
      * cbn [item_string scalar_string]. apply lastc_app. apply lastc_all; [exact Nn|]. rewrite Et in Ft. apply Forall_app in Ft. apply Ft.
  - bi H dt s2 Q1. apply value_error_inv in Q1 as [_ ->]. destruct dt; try discriminate. inversion H; subst. apply Sc; auto.
Qed.
Lemma bool_text_read b st v st' : parse_bool b (set_mark st) = (Ok v, st') -> read_value v st st'.
Proof.
  intros H. apply bool_inv in H as [-> H]. apply moved_adds in H. split; [|repeat split].
  - cbn [scalar_item item_string item_trivia default_trivia tr_cws]. rewrite app_nil_r. destruct b; exact H.
  - exists (match b with true => L "tru" | false => L "fals" end), 101%N. split; [destruct b; reflexivity|discriminate].
Qed.
Lemma restore_inv {A} (m : M A) st a st' : restore_on_err m st = (Ok a, st') -> m st = (Ok a, st').
Proof. unfold restore_on_err. destruct (m st) as [[x|e] s1]; congruence. Qed.
Lemma string_text_read n d st v st' : st_multiline d = false -> bind (restore_on_err (parse_string n d)) (fun v => ret (str_item v)) (set_mark st) = (Ok v, st') ->
  read_value v st st'.
Proof.
  intros Hd H. bi H s s1 Q1. inversion H; subst. apply restore_inv in Q1. pose proof (sat_parse_string _ _ _ _ _ Q1) as Hs.
  apply parse_string_text in Q1; [|exact Hd]. split; [|repeat split].
  - cbn [str_item item_string item_trivia default_trivia tr_cws]. rewrite app_nil_r. exact Q1.
  - cbn [str_item item_string]. destruct s as [| | | | | |t x o]; try contradiction. cbn [scalar_string]. do 2 apply lastc_app.
    destruct t; [exists []|exists [chDQ; chDQ]|exists []|exists [chSQ; chSQ]]; eexists; (split; [reflexivity|discriminate]).
Qed.
