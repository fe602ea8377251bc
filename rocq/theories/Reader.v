(** Reader: the reader only moves forward over an unchanged text (C30, C31),
    booleans (C34). *)
From Verif Require Import Base Source Utils Items Container Arrays Parser Api Lemmas Escape Strings StringRT StringApi Numbers.
From Coq Require Import ZifyBool ZifyNat ZifyN.
Open Scope nat_scope.

(** [st'] is [st] moved forward over [w]. *)
Definition moved (w : str) (st st' : pst) : Prop := p_rest st = w ++ p_rest st' /\ p_pre st' = p_pre st ++ w.
Definition moves (st st' : pst) : Prop := exists w, moved w st st'.

Lemma moved_refl st st' : p_pre st' = p_pre st -> p_rest st' = p_rest st -> moved [] st st'.
Proof. intros H1 H2. split; cbn; [auto|rewrite app_nil_r; exact H1]. Qed.
Lemma moved_trans w1 w2 a b c : moved w1 a b -> moved w2 b c -> moved (w1 ++ w2) a c.
Proof. intros [H1 H2] [H3 H4]. split; [rewrite H1, H3, app_assoc|rewrite H4, H2, app_assoc]; reflexivity. Qed.
Lemma moves_refl st : moves st st.
Proof. exists []. apply moved_refl; reflexivity. Qed.
Lemma moves_same st st' : p_pre st' = p_pre st -> p_rest st' = p_rest st -> moves st st'.
Proof. intros; exists []. apply moved_refl; assumption. Qed.
Lemma moves_trans a b c : moves a b -> moves b c -> moves a c.
Proof. intros [w1 H1] [w2 H2]. exists (w1 ++ w2). eapply moved_trans; eauto. Qed.
Lemma moved_src w st st' : moved w st st' -> src st' = src st.
Proof. intros [H1 H2]. unfold src. rewrite H1, H2, <- app_assoc. reflexivity. Qed.
Lemma moved_idx w st st' : moved w st st' -> idx st' = idx st + List.length w.
Proof. intros [H1 H2]. unfold idx. rewrite H2, app_length. reflexivity. Qed.

Definition good {A} (m : M A) : Prop := forall st, moves st (snd (m st)).

Lemma good_ret {A} (a : A) : good (ret a).
Proof. intros st. apply moves_refl. Qed.
Lemma good_bind {A B} (m : M A) (f : A -> M B) : good m -> (forall a, good (f a)) -> good (bind m f).
Proof.
  intros Hm Hf st. unfold bind. pose proof (Hm st) as H. destruct (m st) as [[a|e] st1]; cbn [snd] in *; [|exact H].
  eapply moves_trans; [exact H|apply Hf].
Qed.
Lemma good_raise {A} k : good (@raise A k).
Proof. intros st. apply moves_refl. Qed.
Lemma good_raise_exn {A} e : good (@raise_exn A e).
Proof. intros st. apply moves_refl. Qed.
Lemma good_get : good get.
Proof. intros st. apply moves_refl. Qed.
Lemma good_lift {A} (r : res A) : good (lift r).
Proof. intros st. apply moves_refl. Qed.
Lemma good_mark : good mark.
Proof. intros st. apply moves_same; reflexivity. Qed.
Lemma good_extract : good extractM.
Proof. intros st. apply moves_refl. Qed.
Lemma good_current : good current.
Proof. intros st. apply moves_refl. Qed.
Lemma good_end : good endM.
Proof. intros st. apply moves_refl. Qed.
Lemma inc_moved st : moves st (snd (inc st)).
Proof.
  destruct st as [pre [|c r] mk]; [apply moves_refl|]. exists [c]. split; reflexivity.
Qed.
Lemma good_inc : good incM.
Proof. intros st. pose proof (inc_moved st). unfold incM. destruct (inc st); exact H. Qed.
Lemma good_inc_exn k : good (inc_exn k).
Proof. intros st. pose proof (inc_moved st). unfold inc_exn. destruct (inc st) as [[|] st']; exact H. Qed.
Lemma inc_n_moves n : forall st, moves st (snd (inc_n n st)).
Proof.
  induction n as [|n IH]; intros st; cbn [inc_n]; [apply moves_refl|].
  pose proof (inc_moved st) as H. destruct (inc st) as [[|] st1]; cbn [snd] in *; [|exact H].
  eapply moves_trans; [exact H|apply IH].
Qed.
Lemma good_inc_n n : good (inc_nM n).
Proof. intros st. pose proof (inc_n_moves n st). unfold inc_nM. destruct (inc_n n st); exact H. Qed.
Lemma good_inc_n_exn n k : good (inc_n_exn n k).
Proof. induction n; cbn [inc_n_exn]; [apply good_ret|]. apply good_bind; [apply good_inc_exn|intros _; exact IHn]. Qed.
Lemma adv_moved p st : moved (take_while p (p_rest st)) st (adv_while p st).
Proof. split; [symmetry; apply take_drop|reflexivity]. Qed.
Lemma good_adv p : good (adv_whileM p).
Proof. intros st. eexists. apply adv_moved. Qed.
Lemma good_consume1 c : good (consume1 c).
Proof. intros st. unfold consume1. destruct (_ =? _)%N; [apply inc_moved|apply moves_refl]. Qed.
Lemma good_restore {A} (m : M A) : good m -> good (restore_on_err m).
Proof.
  intros H st. unfold restore_on_err. specialize (H st). destruct (m st) as [[a|e] st1]; [exact H|].
  apply moves_same; reflexivity.
Qed.
Lemma good_restoring {A} (m : M A) : good (restoring m).
Proof. intros st. unfold restoring. destruct (m st). apply moves_same; reflexivity. Qed.
Lemma good_restoring_all {A} (m : M A) : good (restoring_all m).
Proof. intros st. unfold restoring_all. destruct (m st). apply moves_refl. Qed.
Lemma good_peek n : good (peek n).
Proof. intros st. apply moves_refl. Qed.
Lemma good_since a : good (since a).
Proof. intros st. apply moves_refl. Qed.
Lemma good_idx : good idxM.
Proof. intros st. apply moves_refl. Qed.
Lemma good_lossy b n : good (lossy_if b n).
Proof. unfold lossy_if. destruct b; [apply good_raise_exn|apply good_ret]. Qed.
Lemma good_value_error {A} k (r : res A) : good (value_error k r).
Proof. destruct r as [a|[]]; cbn [value_error]; first [apply good_ret | apply good_raise | apply good_raise_exn]. Qed.

Global Hint Resolve good_ret good_raise good_raise_exn good_get good_lift good_mark good_extract good_current good_end
  good_inc good_inc_exn good_inc_n good_inc_n_exn good_adv good_consume1 good_restoring good_restoring_all good_peek good_since
  good_idx good_lossy good_value_error : good.
Ltac good :=
  repeat (first [ solve [auto with good]
                | apply good_bind; [|intros ?]
                | apply good_restore
                | match goal with |- good (match ?x with _ => _ end) => destruct x end
                | match goal with |- good (let _ := _ in _) => cbv zeta end
                | progress cbv zeta ]).

Lemma good_trail : good parse_trail.
Proof. unfold parse_trail. good. Qed.
Global Hint Resolve good_trail : good.
Lemma good_comment_trail b : good (parse_comment_trail b).
Proof. unfold parse_comment_trail. good. Qed.
Lemma good_peek_unicode b : good (peek_unicode b).
Proof. apply good_restoring_all. Qed.
Lemma good_skip_ws : good skip_ws_exn.
Proof.
  intros st. unfold skip_ws_exn. destruct (_ && _); cbn [snd]; eexists; apply adv_moved.
Qed.
Global Hint Resolve good_comment_trail good_peek_unicode good_skip_ws : good.
Lemma good_escaped_char b : good (parse_escaped_char b).
Proof. unfold parse_escaped_char. good. Qed.
Global Hint Resolve good_escaped_char : good.
Lemma good_string_loop n : forall d v e, good (string_loop n d v e).
Proof. induction n as [|n IH]; intros; cbn [string_loop]; good. Qed.
Lemma good_skip_nl : good skip_first_newline.
Proof. unfold skip_first_newline. good. Qed.
Global Hint Resolve good_string_loop good_skip_nl : good.
Lemma good_parse_string n d : good (parse_string n d).
Proof. unfold parse_string. good. Qed.
Global Hint Resolve good_parse_string : good.
Lemma good_parse_key n : good (parse_key n).
Proof. induction n as [|n IH]; cbn [parse_key]; good. Qed.
Lemma sep_loop_moves rest : forall pre mk f, moves (mkSt pre rest mk) (snd (sep_loop rest pre mk f)).
Proof.
  induction rest as [|c r IH]; intros pre mk f; cbn [sep_loop]; [apply moves_refl|].
  assert (Hs : forall mk', moves (mkSt pre (c :: r) mk) (mkSt (pre ++ [c]) r mk')) by (intros; exists [c]; split; reflexivity).
  destruct (is_kv_sep c); [|apply moves_refl].
  destruct r as [|d r']; [apply Hs|].
  destruct (d =? chEQ)%N; [destruct f|]; cbn [snd]; try apply Hs; (eapply moves_trans; [apply Hs|apply IH]).
Qed.
Lemma good_sep : good parse_sep.
Proof.
  unfold parse_sep. good. intros st. destruct st as [pre rest mk]. apply sep_loop_moves.
Qed.
Lemma good_bool b : good (parse_bool b).
Proof.
  unfold parse_bool. apply good_restore. apply good_bind; [|intros; auto with good].
  generalize (if b then L "true" else L "false"). intros w. induction w as [|c w IH]; cbn [consume_all]; good.
Qed.
Lemma good_digit : good parse_digit_value.
Proof. unfold parse_digit_value. good. Qed.
Lemma good_signed : good parse_signed_value.
Proof. unfold parse_signed_value. good. Qed.
Global Hint Resolve good_parse_key good_sep good_bool good_digit good_signed : good.
Lemma good_kv_with b pv n c : good pv -> good (key_value_with b pv n c).
Proof. intros H. unfold key_value_with. good. Qed.
Lemma good_values n : forall s, good (parse_value s n) /\ (forall e p, good (array_loop s n e p)) /\ (forall e t, good (inline_loop s n e t)).
Proof.
  induction n as [|n IH]; intros s.
  - repeat split; intros; cbn [parse_value array_loop inline_loop]; good.
  - destruct (IH s) as (IH1 & IH2 & IH3). repeat split; intros.
    + cbn [parse_value]. good.
    + cbn [array_loop]. good.
      * intros st. pose proof (IH1 st) as H. destruct (parse_value s n st) as [[v|e0] st1]; cbn [snd] in H.
        -- destruct (_ && _); [exact H|]. eapply moves_trans; [exact H|apply IH2].
        -- destruct e0 as [k0 l0 c0| | | | | | | | | | | | | |]; try exact H. destruct k0; try exact H. destruct (_ && _); [exact H|].
           eapply moves_trans; [exact H|]. match goal with |- moves st1 (snd (?m st1)) => assert (G : good m) by good; apply G end.
      * intros st. pose proof (IH1 st) as H. destruct (parse_value s n st) as [[v|e0] st1]; cbn [snd] in H.
        -- destruct (_ && _); [exact H|]. eapply moves_trans; [exact H|apply IH2].
        -- destruct e0 as [k0 l0 c0| | | | | | | | | | | | | |]; try exact H. destruct k0; try exact H. destruct (_ && _); [exact H|].
           eapply moves_trans; [exact H|]. match goal with |- moves st1 (snd (?m st1)) => assert (G : good m) by good; apply G end.
    + cbn [inline_loop]. unfold add_elem. assert (IHk : good (key_value_with s (parse_value s n) n false)) by (apply good_kv_with; exact IH1). good.
Qed.

Lemma good_value s n : good (parse_value s n).
Proof. apply good_values. Qed.
Lemma good_kv s n c : good (parse_key_value s n c).
Proof. apply good_kv_with, good_value. Qed.
Lemma good_item_head : good item_head.
Proof. unfold item_head. good. Qed.
Lemma good_item s n : good (parse_item s n).
Proof.
  intros st. unfold parse_item. pose proof (good_restore item_head good_item_head st) as H.
  destruct (restore_on_err item_head st) as [[[i| |]|e] st1]; cbn [snd] in *; try exact H.
  match goal with |- moves st (snd (?m ?x)) => assert (G : good m) by (apply good_bind; [apply good_kv|intros; good]);
    eapply moves_trans; [|apply (G x)] end.
  apply moves_same; reflexivity.
Qed.
Lemma good_table_key n : good (parse_table_key n).
Proof.
  intros st. unfold parse_table_key. pose proof (good_parse_key n st) as H.
  destruct (parse_key n st) as [[k|e] st1]; cbn [snd] in *; [exact H|].
  destruct e as [k0 l0 c0| | | | | | | | | | | | | |]; try exact H. destruct k0; exact H.
Qed.
Lemma good_peek_table n : good (peek_table n).
Proof. apply good_restoring_all. Qed.
Global Hint Resolve good_value good_kv good_item good_table_key good_peek_table : good.

Lemma good_tables n :
  (forall s p t k, good (parse_table s n p t k)) /\ (forall s f k c, good (table_loop s n f k c))
  /\ (forall s f k c, good (siblings s n f k c)) /\ (forall s f m k, good (parse_aot s n f m k))
  /\ (forall s l m k, good (aot_loop s n l m k)).
Proof.
  induction n as [|n IH].
  - repeat split; intros; cbn [parse_table table_loop siblings parse_aot aot_loop]; good.
  - destruct IH as (IH1 & IH2 & IH3 & IH4 & IH5). repeat split; intros.
    + cbn [parse_table]. good.
    + cbn [table_loop]. unfold table_append_m. good.
    + cbn [siblings]. unfold table_append_m. good.
    + cbn [parse_aot]. good.
    + cbn [aot_loop]. good.
Qed.
Lemma good_wrap r : good (wrap_append r).
Proof. destruct r as [c|e]; cbn [wrap_append]; [good|]. destruct e; good. Qed.
Lemma good_table s n p t k : good (parse_table s n p t k).
Proof. apply good_tables. Qed.
Lemma good_aot s n f m k : good (parse_aot s n f m k).
Proof. apply good_tables. Qed.
Global Hint Resolve good_wrap good_table good_aot : good.
Lemma good_body n : forall s c, good (body_loop s n c).
Proof. induction n as [|n IH]; intros; cbn [body_loop]; good. Qed.
Lemma good_tables_loop n : forall s c, good (tables_loop s n c).
Proof. induction n as [|n IH]; intros; cbn [tables_loop]; good. Qed.
Global Hint Resolve good_body good_tables_loop : good.
Lemma good_doc s n : good (parse_doc s n).
Proof. unfold parse_doc. good. Qed.

Lemma tables_loop_end n : forall s c st c' st', tables_loop s n c st = (Ok c', st') -> p_rest st' = [].
Proof.
  induction n as [|n IH]; intros s c st c' st' H; cbn [tables_loop] in H; [discriminate|].
  apply bind_inv in H as (e & st1 & H1 & H). unfold endM in H1. inversion H1; subst.
  destruct (at_end st1) eqn:Ee.
  - inversion H; subst. unfold at_end in Ee. destruct (p_rest st'); [reflexivity|discriminate].
  - apply bind_inv in H as (kt & st2 & H2 & H). apply bind_inv in H as (v & st3 & H3 & H).
    apply bind_inv in H as (c2 & st4 & H4 & H). eapply IH; eauto.
Qed.
Lemma doc_end s n st c st' : parse_doc s n st = (Ok c, st') -> p_rest st' = [].
Proof.
  unfold parse_doc. intros H. apply bind_inv in H as (c1 & st1 & H1 & H). apply bind_inv in H as (c2 & st2 & H2 & H).
  inversion H; subst. eapply tables_loop_end; eauto.
Qed.

(** Reader operations: source.py [inc], [inc_n], [consume], [mark]. *)
Inductive rop := RInc | RIncN (n : nat) | RConsume (p : char -> bool) | RMark.
Definition rexec (o : rop) (st : pst) : pst :=
  match o with
  | RInc => snd (inc st)
  | RIncN n => snd (inc_n n st)
  | RConsume p => adv_while p st
  | RMark => set_mark st
  end.
Definition rrun (ops : list rop) (s : str) : pst := fold_left (fun st o => rexec o st) ops (start s).
Lemma rexec_moves o st : moves st (rexec o st) /\ (p_mark st <= idx st -> p_mark (rexec o st) <= idx (rexec o st)).
Proof.
  assert (Hinc : forall st, p_mark (snd (inc st)) = p_mark st) by (intros [pre [|c r] mk]; reflexivity).
  assert (Hincn : forall n st, p_mark (snd (inc_n n st)) = p_mark st).
  { induction n as [|n IH]; intros x; cbn [inc_n]; [reflexivity|]. pose proof (Hinc x). destruct (inc x) as [[|] y]; cbn [snd] in *; [|exact H].
    rewrite IH. exact H. }
  assert (Hmono : forall st st', moves st st' -> p_mark st' = p_mark st -> p_mark st <= idx st -> p_mark st' <= idx st').
  { intros a b [w Hw] Hm Hle. rewrite (moved_idx _ _ _ Hw). lia. }
  destruct o; cbn [rexec].
  - split; [apply inc_moved|]. apply Hmono; [apply inc_moved|apply Hinc].
  - split; [apply inc_n_moves|]. apply Hmono; [apply inc_n_moves|apply Hincn].
  - split; [eexists; apply adv_moved|]. apply Hmono; [eexists; apply adv_moved|reflexivity].
  - split; [apply moves_same; reflexivity|]. intros _. unfold set_mark, idx. cbn. lia.
Qed.
Lemma rrun_gen ops : forall st, p_mark st <= idx st ->
  moves st (fold_left (fun st o => rexec o st) ops st)
  /\ p_mark (fold_left (fun st o => rexec o st) ops st) <= idx (fold_left (fun st o => rexec o st) ops st).
Proof.
  induction ops as [|o ops IH]; intros st H; cbn [fold_left]; [split; [apply moves_refl|exact H]|].
  destruct (rexec_moves o st) as [H1 H2]. specialize (H2 H). destruct (IH _ H2) as [H3 H4].
  split; [eapply moves_trans; eauto|exact H4].
Qed.
Lemma extract_slice st : p_mark st <= idx st ->
  extract st = firstn (idx st - p_mark st) (skipn (p_mark st) (src st)).
Proof.
  intros H. unfold extract, src, idx in *. rewrite skipn_app.
  replace (p_mark st - List.length (p_pre st)) with 0 by lia. cbn [skipn].
  rewrite firstn_app, skipn_length.
  replace (List.length (p_pre st) - p_mark st - (List.length (p_pre st) - p_mark st)) with 0 by lia.
  cbn [firstn]. rewrite app_nil_r, firstn_all2; [reflexivity|]. rewrite skipn_length. lia.
Qed.
Lemma reader_tiles s ops1 ops2 :
  let st := rrun ops1 s in
  let st' := rrun (ops1 ++ ops2) s in
  src st' = s /\ idx st <= idx st' /\ idx st' <= List.length s
  /\ p_mark st' <= idx st' /\ extract st' = firstn (idx st' - p_mark st') (skipn (p_mark st') s)
  /\ p_rest st' = skipn (idx st') s.
Proof.
  intros st st'. unfold st', rrun. rewrite fold_left_app. fold (rrun ops1 s). fold st.
  destruct (rrun_gen ops1 (start s)) as [M1 K1]; [cbn; lia|]. fold (rrun ops1 s) in M1, K1. fold st in M1, K1.
  destruct (rrun_gen ops2 st K1) as [[w2 M2] K2]. set (x := fold_left _ ops2 st) in *.
  destruct M1 as [w1 M1]. pose proof (moved_trans _ _ _ _ _ M1 M2) as M12.
  assert (Es : src x = s) by (rewrite (moved_src _ _ _ M12); reflexivity).
  split; [exact Es|]. rewrite (moved_idx _ _ _ M2). split; [lia|].
  rewrite <- (moved_idx _ _ _ M2). split.
  { rewrite <- Es. unfold src, idx. rewrite app_length. lia. }
  split; [exact K2|]. split; [etransitivity; [apply extract_slice; exact K2|rewrite Es; reflexivity]|].
  rewrite <- Es. unfold src, idx. rewrite skipn_length_app. reflexivity.
Qed.
Lemma parse_tiles strict n s r st : parse_doc strict n (start s) = (r, st) ->
  src st = s /\ idx st <= List.length s /\ ((exists d, r = Ok d) -> idx st = List.length s).
Proof.
  intros H. pose proof (good_doc strict n (start s)) as [w Hw]. rewrite H in Hw. cbn [snd] in Hw.
  pose proof (moved_src _ _ _ Hw) as Es. change (src (start s)) with s in Es. split; [exact Es|]. split.
  - rewrite <- Es. unfold src, idx. rewrite app_length. lia.
  - intros [d ->]. apply doc_end in H. rewrite <- Es. unfold src, idx. rewrite H, app_nil_r. reflexivity.
Qed.

(** ** C30 *)
Lemma peeks_still : forall st,
  (forall n, snd (peek n st) = st) /\ (forall n, snd (peek_table n st) = st) /\ (forall b, snd (peek_unicode b st) = st)
  /\ (forall b e st', parse_bool b st = (Err e, st') -> p_pre st' = p_pre st /\ p_rest st' = p_rest st)
  /\ (forall n d e st', restore_on_err (parse_string n d) st = (Err e, st') -> p_pre st' = p_pre st /\ p_rest st' = p_rest st).
Proof.
  intros st. split; [reflexivity|].
  split; [intros n; unfold peek_table, restoring_all; match goal with |- snd (let '(r, _) := ?m in _) = _ => destruct m end; reflexivity|].
  split; [intros b; unfold peek_unicode, restoring_all; match goal with |- snd (let '(r, _) := ?m in _) = _ => destruct m end; reflexivity|].
  split.
  - intros b e st'. unfold parse_bool, restore_on_err. match goal with |- match ?m with _ => _ end = _ -> _ => destruct m as [[]] end.
    + discriminate.
    + intros H. inversion H; subst. split; reflexivity.
  - intros n d e st'. unfold restore_on_err. match goal with |- match ?m with _ => _ end = _ -> _ => destruct m as [[]] end.
    + discriminate.
    + intros H. inversion H; subst. split; reflexivity.
Qed.

(** ** Results: [sat P m]: every normal result of [m] satisfies [P]. *)
Definition sat {A} (P : A -> Prop) (m : M A) : Prop := forall st a st', m st = (Ok a, st') -> P a.
Lemma sat_bind {A B} (P : B -> Prop) (m : M A) (f : A -> M B) : (forall a, sat P (f a)) -> sat P (bind m f).
Proof. intros H st b st' E. apply bind_inv in E as (a & st1 & _ & E). eapply H; eauto. Qed.
Lemma sat_bind2 {A B} (Q : A -> Prop) (P : B -> Prop) (m : M A) (f : A -> M B) :
  sat Q m -> (forall a, Q a -> sat P (f a)) -> sat P (bind m f).
Proof. intros Hm H st b st' E. apply bind_inv in E as (a & st1 & E1 & E). eapply H; eauto. Qed.
Lemma sat_ret {A} (P : A -> Prop) a : P a -> sat P (ret a).
Proof. intros H st x st' E. inversion E; subst. exact H. Qed.
Lemma sat_raise {A} (P : A -> Prop) k : sat P (raise k).
Proof. intros st x st' E. discriminate. Qed.
Lemma sat_raise_exn {A} (P : A -> Prop) k : sat P (raise_exn k).
Proof. intros st x st' E. discriminate. Qed.
Lemma sat_restore {A} (P : A -> Prop) m : sat P m -> sat P (restore_on_err m).
Proof. intros H st x st' E. unfold restore_on_err in E. destruct (m st) as [[a|e] s1] eqn:Em; inversion E; subst. eapply H; eauto. Qed.
Ltac sat :=
  repeat (first [ solve [auto] | apply sat_raise | apply sat_raise_exn | (apply sat_ret; solve [auto])
                | apply sat_bind; intros ? | apply sat_restore
                | match goal with |- sat _ (match ?x with _ => _ end) => destruct x end
                | progress cbv zeta ]).

Definition is_str (s : scalar) : Prop := match s with SStr _ _ _ => True | _ => False end.
Lemma sat_string_loop n : forall d v e, sat is_str (string_loop n d v e).
Proof. induction n as [|n IH]; intros; cbn [string_loop]; sat; apply sat_ret; exact I. Qed.
Lemma sat_parse_string n d : sat is_str (parse_string n d).
Proof. unfold parse_string. sat; try (apply sat_ret; exact I). apply sat_string_loop. Qed.
Lemma sat_number raw v : parse_number raw = Some v -> match v with SInt _ _ | SFloat _ _ => True | _ => False end.
Proof.
  unfold parse_number. intros H.
  repeat match type of H with context [match ?x with _ => _ end] => destruct x eqn:?; try discriminate end;
  inversion H; exact I.
Qed.
Definition not_bool (i : item) : Prop := bool_value i = None.
Lemma sat_array n : forall s e p, sat not_bool (array_loop s n e p).
Proof.
  induction n as [|n IH]; intros; cbn [array_loop]; sat; try (apply sat_ret; reflexivity).
  all: intros st ax st' E; destruct (parse_value s n st) as [[v|e0] st1].
  all: try (destruct (_ && _); [discriminate|]; eapply IH; eauto).
  all: destruct e0 as [k0 l0 c0| | | | | | | | | | | | | |]; try discriminate; destruct k0; try discriminate;
       destruct (_ && _); [discriminate|]; revert E; match goal with |- ?m _ = _ -> _ =>
         assert (G : sat not_bool m) by (sat; apply sat_ret; reflexivity); apply G end.
Qed.
Lemma sat_inline n : forall s e p, sat not_bool (inline_loop s n e p).
Proof. induction n as [|n IH]; intros; cbn [inline_loop]; sat; apply sat_ret; reflexivity. Qed.
Lemma sat_numbers raw : sat not_bool (match parse_number raw with Some v => ret (scalar_item v) | None => raise KInvalidNumber end).
Proof.
  destruct (parse_number raw) as [v|] eqn:E; [|apply sat_raise]. apply sat_ret.
  apply sat_number in E. destruct v; try contradiction; reflexivity.
Qed.
Lemma sat_digit : sat not_bool parse_digit_value.
Proof.
  unfold parse_digit_value. do 2 (apply sat_bind; intros ?).
  destruct (loose_match a0) as [[[] []]|]; try apply sat_numbers; sat; apply sat_ret; reflexivity.
Qed.
Lemma sat_signed : sat not_bool parse_signed_value.
Proof. unfold parse_signed_value. do 2 (apply sat_bind; intros ?). apply sat_numbers. Qed.

Definition bool_text (b : bool) : str := if b then L "true" else L "false".
Lemma consume_all_inv w : forall st a st', Forall (fun c => c <> chNUL) w -> consume_all w st = (Ok a, st') -> moved w st st'.
Proof.
  induction w as [|c w IH]; intros st a st' Hw E; cbn [consume_all] in E.
  - inversion E; subst. apply moved_refl; reflexivity.
  - inversion Hw; subst. apply bind_inv in E as (u & st1 & E1 & E).
    unfold consume1 in E1. destruct (N.eqb_spec (cur st) c) as [Ec|]; [|discriminate].
    inversion E1; subst st1 u. apply IH in E; [|assumption].
    destruct st as [pre [|x r] mk]; unfold cur in Ec; cbn [p_rest] in Ec; [congruence|]. subst x.
    change (c :: w) with ([c] ++ w). eapply moved_trans; [|exact E]. split; reflexivity.
Qed.
Lemma bool_inv b st it st' : parse_bool b st = (Ok it, st') -> it = scalar_item (SBool b) /\ moved (bool_text b) st st'.
Proof.
  unfold parse_bool, restore_on_err. intros E.
  match type of E with match ?m with _ => _ end = _ => destruct m as [[x|]] eqn:Em end; [|discriminate].
  inversion E; subst. apply bind_inv in Em as (u & st1 & E1 & E2). inversion E2; subst. split; [reflexivity|].
  eapply consume_all_inv; [|exact E1]. destruct b; repeat constructor; discriminate.
Qed.
Lemma bool_exact strict n st it st' b : parse_value strict n st = (Ok it, st') -> bool_value it = Some b ->
  moved (bool_text b) st st' /\ item_string it = bool_text b.
Proof.
  destruct n as [|n]; [discriminate|]. cbn [parse_value]. intros E Hb.
  apply bind_inv in E as (u & st1 & E1 & E). inversion E1; subst u st1. clear E1.
  apply bind_inv in E as (c & st1 & E1 & E). inversion E1; subst c st1. clear E1.
  assert (Hms : moved [] st (set_mark st)) by (apply moved_refl; reflexivity).
  assert (NB : forall m : M item, sat not_bool m -> m (set_mark st) = (Ok it, st') -> False).
  { intros m Hm Em. apply Hm in Em. unfold not_bool in Em. congruence. }
  assert (BB : forall b', parse_bool b' (set_mark st) = (Ok it, st') -> moved (bool_text b) st st' /\ item_string it = bool_text b).
  { intros b' Eb. apply bool_inv in Eb as [-> Hm]. cbn in Hb. inversion Hb; subst b'.
    split; [|destruct b; reflexivity]. change (bool_text b) with ([] ++ bool_text b). eapply moved_trans; eauto. }
  revert E. cbv zeta.
  repeat match goal with |- (if ?x then _ else _) _ = _ -> _ => destruct x end; intros E.
  - exfalso. revert E. apply NB. apply sat_bind2 with (Q := is_str); [apply sat_restore, sat_parse_string|].
    intros a Ha. apply sat_ret. destruct a; try contradiction; reflexivity.
  - exfalso. revert E. apply NB. apply sat_bind2 with (Q := is_str); [apply sat_restore, sat_parse_string|].
    intros a Ha. apply sat_ret. destruct a; try contradiction; reflexivity.
  - eapply BB; eauto.
  - eapply BB; eauto.
  - exfalso. revert E. apply NB. apply sat_bind. intros _. apply sat_array.
  - exfalso. revert E. apply NB. apply sat_bind. intros _. apply sat_inline.
  - exfalso. revert E. apply NB. apply sat_bind. intros p.
    destruct (_ || _); [apply sat_signed|]. destruct (is_ascii_digit _); [apply sat_digit|apply sat_raise].
Qed.
Lemma reads_bool b : reads_as (bool_text b) (api_bool b) (fun _ => True).
Proof.
  intros strict n pre mk tail _ Hn. destruct n as [|n]; [lia|]. exists (List.length pre).
  destruct b; cbn [parse_value bool_text].
  - replace (pre ++ L "true") with ((((pre ++ [116%N]) ++ [114%N]) ++ [117%N]) ++ [101%N]) by (rewrite <- !app_assoc; reflexivity).
    reflexivity.
  - replace (pre ++ L "false") with (((((pre ++ [102%N]) ++ [97%N]) ++ [108%N]) ++ [115%N]) ++ [101%N]) by (rewrite <- !app_assoc; reflexivity).
    reflexivity.
Qed.
