(** Mono: more fuel, or dropping [strict], does not change a result that was neither
    out of fuel nor a refused lossy branch. *)
From Verif Require Import Base Source Utils Items Container Arrays Parser Lemmas Reader Wf Errors Fuel FuelParse.
From Coq Require Import ZifyBool ZifyNat ZifyN.
Open Scope nat_scope.

Section Mono.
Variable lossy : bool.
Definition bad (e : exn) : Prop := match e with FuelE => True | LossyE _ => lossy = true | _ => False end.
Definition rle {A} (r r' : res A) : Prop := (exists e, r = Err e /\ bad e) \/ r' = r.
Definition sle (s s' : bool) : Prop := s' = s \/ (s' = false /\ lossy = true).

Lemma rle_refl {A} (r : res A) : rle r r. Proof. right. reflexivity. Qed.
Lemma rle_bad {A} e (r : res A) : bad e -> rle (Err e) r. Proof. left. eauto. Qed.
Lemma rle_bind {A B} (r r' : res A) (f f' : A -> res B) : rle r r' -> (forall a, rle (f a) (f' a)) -> rle (rbind r f) (rbind r' f').
Proof.
  intros [(e & -> & He)| ->] H; [left; exists e; auto|]. destruct r as [a|e]; [apply H|apply rle_refl].
Qed.
Lemma rle_fold {A B} (f f' : B -> A -> res B) l : (forall b x, rle (f b x) (f' b x)) -> forall b, rle (fold_res f l b) (fold_res f' l b).
Proof.
  intros H. induction l as [|x l IH]; intros b; cbn [fold_res]; [apply rle_refl|].
  destruct (H b x) as [(e & -> & He)| ->]; [left; exists e; auto|]. destruct (f b x); [apply IH|apply rle_refl].
Qed.
Ltac rl :=
  repeat (first [ apply rle_refl
                | solve [auto]
                | apply rle_bind; [|intros ?]
                | apply rle_fold; intros ? ?
                | match goal with |- rle (match ?x with _ => _ end) (match ?x with _ => _ end) => destruct x end
                | progress cbv zeta ]).
Lemma lossy_rle {A} s s' b n (r r' : res A) : sle s s' -> rle r r' -> rle (if s && b then Err (LossyE n) else r) (if s' && b then Err (LossyE n) else r').
Proof.
  intros H K. destruct b; rewrite ?andb_true_r, ?andb_false_r; [|exact K]. destruct H as [->|[-> HL]]; [destruct s; [apply rle_refl|exact K]|].
  destruct s; [apply rle_bad; exact HL|exact K].
Qed.
Lemma lossy_rle1 {A} s s' n (r r' : res A) : sle s s' -> rle r r' -> rle (if s then Err (LossyE n) else r) (if s' then Err (LossyE n) else r').
Proof. intros H K. destruct H as [->|[-> HL]]; [destruct s; [apply rle_refl|exact K]|]. destruct s; [apply rle_bad; exact HL|exact K]. Qed.

Ltac rl2 :=
  repeat (first [ apply rle_refl
                | solve [auto]
                | apply lossy_rle; [assumption|]
                | apply lossy_rle1; [assumption|]
                | apply rle_bind; [|intros ?]
                | apply rle_fold; intros ? ?
                | match goal with |- rle (match ?x with _ => _ end) (match ?x with _ => _ end) => destruct x end
                | progress cbv zeta ]).
Definition amono n := forall n', n <= n' ->
  (forall prox s s' c k it v, sle s s' -> rle (append n prox s c k it v) (append n' prox s' c k it v))
  /\ (forall c k, rle (contains n c k) (contains n' c k))
  /\ (forall c l, rle (proxy n c l) (proxy n' c l))
  /\ (forall c k, rle (validate_key n c k) (validate_key n' c k))
  /\ (forall prox s s' c tm k it, sle s s' -> rle (table_append n prox s c tm k it) (table_append n' prox s' c tm k it))
  /\ (forall s s' c ci nk v, sle s s' -> rle (replace_at n s c ci nk v) (replace_at n' s' c ci nk v)).
Lemma amono_ok n : amono n.
Proof.
  induction n as [|n IH]; intros n' Hn'; [repeat match goal with |- _ /\ _ => split end; intros; apply rle_bad; exact I|].
  destruct n' as [|n']; [lia|]. destruct (IH n' ltac:(lia)) as (IA & IC & IP & IV & IT & IR).
  split; [|split; [|split; [|split; [|split]]]].
  - intros prox s s' c k it v Hs. cbn [append].
    destruct k as [[k|[|k1 [|k2 l]] ? ?]|]; cbn [kstr]; try apply rle_refl; [|destruct (is_table_or_aot it); [apply rle_refl|apply IA, Hs]].
    generalize (pre_append c (Some k) (set_name (k_key k) it)). intros i.
    apply rle_bind; [apply IC|]. intros present. destruct (negb present); [apply rle_refl|].
    destruct c as [body m p tks d]. destruct (map_get (k_key k) m) as [ci|]; [|apply rle_refl]. cbv zeta.
    destruct (nth_error body _) as [[ck cur]|]; [|apply rle_refl]. destruct i as [| | | | | |ic im|il iln ilp ilt]; try apply rle_refl; rl2.
  - intros c k. cbn [contains]. destruct (map_get k (c_map c)) as [[]|]; try apply rle_refl.
    destruct (IP c l) as [(e & -> & He)| ->]; [|apply rle_refl]. destruct e; try (destruct He; fail); apply rle_bad; exact He.
  - intros c l. cbn [proxy]. apply rle_bind.
    + apply rle_fold. intros ic i. destruct (nth_error _ _) as [[? []]|]; try apply rle_refl. apply rle_fold. intros. apply IA. left; reflexivity.
    + intros ic. apply rle_bind; [apply rle_fold; intros; apply IV|]. intros. apply rle_refl.
  - intros c k. cbn [validate_key]. rl2.
  - intros prox s s' c tm k it Hs. cbn [table_append]. rl2.
  - intros s s' c ci nk v Hs. cbn [replace_at]. destruct c as [body m p tks d]. destruct ci as [ci|]; [|apply rle_refl].
    destruct (match ci with One _ => _ | Many _ => _ end) as [b ix]. destruct (nth_error b ix) as [[[k|] old]|]; try apply rle_refl. cbv zeta.
    apply rle_bind; [|intros; apply rle_refl]. destruct (xorb _ _); [|apply rle_refl]. apply rle_bind; [apply rle_refl|]. intros c1.
    destruct (find _ _); [apply rle_refl|]. apply rle_bind; [apply IA, Hs|]. intros; apply rle_refl.
Qed.
Lemma append_le n n' prox s s' c k it v : n <= n' -> sle s s' -> rle (append n prox s c k it v) (append n' prox s' c k it v).
Proof. intros Hn Hs. apply (amono_ok n n' Hn). exact Hs. Qed.
Lemma cappend_le s s' c k it : sle s s' -> rle (cappend s c k it) (cappend s' c k it).
Proof. intros Hs. apply append_le; [lia|exact Hs]. Qed.
Lemma table_raw_append_le s s' c k it : sle s s' -> rle (table_raw_append s c k it) (table_raw_append s' c k it).
Proof. intros Hs. unfold table_raw_append. cbv zeta. apply rle_bind; [apply append_le; [lia|exact Hs]|]. intros; apply rle_refl. Qed.

(** ** The parser *)
Definition mle {A} (m m' : M A) : Prop := forall st, (exists e st', m st = (Err e, st') /\ bad e) \/ m' st = m st.
Lemma mle_refl {A} (m : M A) : mle m m. Proof. intros st. right. reflexivity. Qed.
Lemma mle_bad {A} e (m : M A) : bad e -> mle (raise_exn e) m. Proof. intros H st. left. exists e, st. auto. Qed.
Lemma mle_bind {A B} (m m' : M A) (f f' : A -> M B) : mle m m' -> (forall a, mle (f a) (f' a)) -> mle (bind m f) (bind m' f').
Proof.
  intros H K st. unfold bind. destruct (H st) as [(e & st' & -> & He)| ->]; [left; exists e, st'; auto|].
  destruct (m st) as [[a|e] st1]; [apply K|right; reflexivity].
Qed.
Lemma mle_restore {A} (m m' : M A) : mle m m' -> mle (restore_on_err m) (restore_on_err m').
Proof. intros H st. unfold restore_on_err. destruct (H st) as [(e & st' & -> & He)| ->]; [left; eexists; eexists; eauto|right; reflexivity]. Qed.
Lemma mle_restoring {A} (m m' : M A) : mle m m' -> mle (restoring m) (restoring m').
Proof. intros H st. unfold restoring. destruct (H st) as [(e & st' & -> & He)| ->]; [left; eexists; eexists; eauto|right; reflexivity]. Qed.
Lemma mle_restoring_all {A} (m m' : M A) : mle m m' -> mle (restoring_all m) (restoring_all m').
Proof. intros H st. unfold restoring_all. destruct (H st) as [(e & st' & -> & He)| ->]; [left; eexists; eexists; eauto|right; reflexivity]. Qed.
Lemma mle_lift {A} (r r' : res A) : rle r r' -> mle (lift r) (lift r').
Proof. intros [(e & -> & He)| ->] st; [left; exists e, st; auto|right; reflexivity]. Qed.
Lemma mle_lossy s s' b n : sle s s' -> mle (lossy_if (s && b) n) (lossy_if (s' && b) n).
Proof.
  intros H. destruct b; rewrite ?andb_true_r, ?andb_false_r; [|apply mle_refl]. unfold lossy_if. destruct H as [->|[-> HL]]; [apply mle_refl|].
  destruct s; [apply mle_bad; exact HL|apply mle_refl].
Qed.
Lemma mle_wrap r r' : rle r r' -> mle (wrap_append r) (wrap_append r').
Proof. intros [(e & -> & He)| ->]; [|apply mle_refl]. destruct e; try (destruct He; fail); apply mle_bad; exact He. Qed.
Ltac ml :=
  repeat (first [ apply mle_refl
                | solve [auto]
                | apply mle_lossy; assumption
                | rewrite <- ?andb_assoc; apply mle_lossy; assumption
                | apply mle_bind; [|intros ?]
                | apply mle_restore
                | apply mle_restoring
                | apply mle_restoring_all
                | match goal with |- mle (match ?x with _ => _ end) (match ?x with _ => _ end) => destruct x end
                | progress cbv zeta ]).
Lemma mle_string_loop n : forall n' d v e, n <= n' -> mle (string_loop n d v e) (string_loop n' d v e).
Proof.
  induction n as [|n IH]; intros n' d v e Hn; [apply mle_bad; exact I|]. destruct n' as [|n']; [lia|].
  assert (H := fun d v e => IH n' d v e ltac:(lia)). cbn [string_loop]. ml.
Qed.
Lemma mle_parse_string n n' d : n <= n' -> mle (parse_string n d) (parse_string n' d).
Proof. intros Hn. assert (H := fun d v e => mle_string_loop n n' d v e Hn). unfold parse_string. ml. Qed.
Lemma mle_parse_key n : forall n', n <= n' -> mle (parse_key n) (parse_key n').
Proof.
  induction n as [|n IH]; intros n' Hn; [apply mle_bad; exact I|]. destruct n' as [|n']; [lia|].
  assert (H := IH n' ltac:(lia)). assert (K := fun d => mle_parse_string n n' d ltac:(lia)). cbn [parse_key]. ml.
Qed.
Lemma mle_kv_with s s' pv pv' n n' b : sle s s' -> mle pv pv' -> n <= n' -> mle (key_value_with s pv n b) (key_value_with s' pv' n' b).
Proof. intros Hs Hp Hn. assert (H := mle_parse_key n n' Hn). unfold key_value_with. ml. Qed.
Lemma mle_add s s' c k i : sle s s' -> mle (add_elem s c k i) (add_elem s' c k i).
Proof. intros H. apply mle_lift, cappend_le, H. Qed.
Lemma mle_values n : forall n' s s', n <= n' -> sle s s' ->
  mle (parse_value s n) (parse_value s' n') /\ (forall e p, mle (array_loop s n e p) (array_loop s' n' e p))
  /\ (forall e p, mle (inline_loop s n e p) (inline_loop s' n' e p)).
Proof.
  induction n as [|n IH]; intros n' s s' Hn Hs; [repeat split; intros; apply mle_bad; exact I|]. destruct n' as [|n']; [lia|].
  destruct (IH n' s s' ltac:(lia) Hs) as (IH1 & IH2 & IH3). assert (K := fun d => mle_parse_string n n' d ltac:(lia)).
  assert (KV := mle_kv_with s s' _ _ n n' false Hs IH1 ltac:(lia)). assert (AD := fun c k i => mle_add s s' c k i Hs).
  repeat split; intros.
  - cbn [parse_value]. ml.
  - cbn [array_loop]. do 4 (apply mle_bind; [apply mle_refl|intros ?]). destruct (existsb _ _); [apply IH2|]. destruct (_ =? _)%N; [ml|].
    destruct (nonempty _); [apply IH2|]. cbv zeta.
    match goal with |- mle (match p with Some b => if b then ?x else _ | None => _ end) (match p with Some b' => if b' then ?y else _ | None => _ end) =>
      set (nx := x); set (ny := y); assert (N : mle nx ny) by (subst nx ny; ml) end. clearbody nx ny.
    assert (V : mle (fun st => match parse_value s n st with
              | (Ok v, st') => if s && nonempty (tr_cws (item_trivia v)) then (Err (LossyE 2), st')
                  else array_loop s n (e ++ [EVal v]) (Some true) st'
              | (Err (ParseErr (KUnexpectedChar _) _ _), st') => if s && negb (Nat.eqb (idx st') (idx st)) && (cur st' =? chRBR)%N then (Err (LossyE 4), st') else nx st'
              | (Err e, st') => (Err e, st')
              end) (fun st => match parse_value s' n' st with
              | (Ok v, st') => if s' && nonempty (tr_cws (item_trivia v)) then (Err (LossyE 2), st')
                  else array_loop s' n' (e ++ [EVal v]) (Some true) st'
              | (Err (ParseErr (KUnexpectedChar _) _ _), st') => if s' && negb (Nat.eqb (idx st') (idx st)) && (cur st' =? chRBR)%N then (Err (LossyE 4), st') else ny st'
              | (Err e, st') => (Err e, st')
              end)).
    { assert (L : forall b (x y : M item) k st, mle x y -> (exists e1 st1, (if s && b then (Err (LossyE k), st) else x st) = (Err e1, st1) /\ bad e1)
         \/ (if s' && b then (Err (LossyE k), st) else y st) = (if s && b then (Err (LossyE k), st) else x st)).
      { intros b x y k st H. destruct b; rewrite ?andb_true_r, ?andb_false_r; [|apply H]. destruct s.
        - destruct Hs as [->|[-> HL]]; [right; reflexivity|]. left. exists (LossyE k), st. split; [reflexivity|exact HL].
        - destruct Hs as [->|[-> HL]]; apply H. }
      intros st. destruct (IH1 st) as [(e1 & st1 & -> & He)| ->].
      { left. destruct e1; try (destruct He; fail); eexists; eexists; split; try reflexivity; exact He. }
      destruct (parse_value s n st) as [[v|e1] st1].
      - apply (L (nonempty (tr_cws (item_trivia v)))). apply IH2.
      - destruct e1 as [k0 l0 c0| | | | | | | | | | | | | |]; try (right; reflexivity). destruct k0; try (right; reflexivity).
        rewrite <- !andb_assoc. apply (L (negb (Nat.eqb (idx st1) (idx st)) && (cur st1 =? chRBR)%N)). exact N. }
    destruct p as [[|]|]; [exact N|exact V|exact V].
  - cbn [inline_loop]. ml.
Qed.
Lemma mle_value n n' s s' : n <= n' -> sle s s' -> mle (parse_value s n) (parse_value s' n').
Proof. intros. apply mle_values; assumption. Qed.
Lemma mle_item n n' s s' : n <= n' -> sle s s' -> mle (parse_item s n) (parse_item s' n').
Proof.
  intros Hn Hs st. unfold parse_item. destruct (restore_on_err item_head st) as [[[i| |]|e] st1]; try (right; reflexivity).
  match goal with |- (exists e st', ?x ?st0 = _ /\ _) \/ ?y _ = _ => assert (H : mle x y) end.
  { apply mle_bind; [apply mle_kv_with; [exact Hs|apply mle_value; assumption|exact Hn]|]. intros; apply mle_refl. }
  apply H.
Qed.
Lemma mle_table_key n n' : n <= n' -> mle (parse_table_key n) (parse_table_key n').
Proof.
  intros Hn st. unfold parse_table_key. destruct (mle_parse_key n n' Hn st) as [(e & st' & -> & He)| ->]; [|right; reflexivity].
  left. destruct e; try (destruct He; fail); eexists; eexists; split; try reflexivity; exact He.
Qed.
Lemma mle_peek_table n n' : n <= n' -> mle (peek_table n) (peek_table n').
Proof. intros Hn. pose proof (mle_table_key n n' Hn). unfold peek_table. ml. Qed.
Lemma mle_tables n : forall n' s s', n <= n' -> sle s s' ->
  (forall p t k, mle (parse_table s n p t k) (parse_table s' n' p t k)) /\ (forall f k c, mle (table_loop s n f k c) (table_loop s' n' f k c))
  /\ (forall f k c, mle (siblings s n f k c) (siblings s' n' f k c)) /\ (forall f m k, mle (parse_aot s n f m k) (parse_aot s' n' f m k))
  /\ (forall l m k, mle (aot_loop s n l m k) (aot_loop s' n' l m k)).
Proof.
  induction n as [|n IH]; intros n' s s' Hn Hs; [repeat split; intros; apply mle_bad; exact I|]. destruct n' as [|n']; [lia|].
  destruct (IH n' s s' ltac:(lia) Hs) as (IH1 & IH2 & IH3 & IH4 & IH5).
  assert (TK := mle_table_key n n' ltac:(lia)). assert (PT := mle_peek_table n n' ltac:(lia)). assert (PI := mle_item n n' s s' ltac:(lia) Hs).
  assert (TA : forall c k i, mle (table_append_m s c k i) (table_append_m s' c k i)) by (intros; apply mle_lift, table_raw_append_le, Hs).
  repeat split; intros.
  - cbn [parse_table]. do 2 (apply mle_bind; [apply mle_refl|intros ?] || (destruct (negb _); [apply mle_refl|])). ml.
  - cbn [table_loop]. ml.
  - cbn [siblings]. ml.
  - cbn [parse_aot]. ml.
  - cbn [aot_loop]. ml.
Qed.
Lemma mle_body n : forall n' s s' c, n <= n' -> sle s s' -> mle (body_loop s n c) (body_loop s' n' c).
Proof.
  induction n as [|n IH]; intros n' s s' c Hn Hs; [apply mle_bad; exact I|]. destruct n' as [|n']; [lia|].
  assert (B := fun c => IH n' s s' c ltac:(lia) Hs). assert (PI := mle_item n n' s s' ltac:(lia) Hs).
  assert (W := fun c k i => mle_wrap _ _ (cappend_le s s' c k i Hs)). cbn [body_loop]. ml.
Qed.
Lemma mle_tables_loop n : forall n' s s' c, n <= n' -> sle s s' -> mle (tables_loop s n c) (tables_loop s' n' c).
Proof.
  induction n as [|n IH]; intros n' s s' c Hn Hs; [apply mle_bad; exact I|]. destruct n' as [|n']; [lia|].
  assert (B := fun c => IH n' s s' c ltac:(lia) Hs). destruct (mle_tables n n' s s' ltac:(lia) Hs) as (T1 & _ & _ & T4 & _).
  assert (W := fun c k i => mle_wrap _ _ (cappend_le s s' c k i Hs)). cbn [tables_loop]. ml.
Qed.
Lemma mle_doc n n' s s' : n <= n' -> sle s s' -> mle (parse_doc s n) (parse_doc s' n').
Proof.
  intros Hn Hs. unfold parse_doc. apply mle_bind; [apply mle_body; assumption|]. intros c. apply mle_bind; [apply mle_tables_loop; assumption|].
  intros; apply mle_refl.
Qed.
End Mono.
(** More fuel does not change the result. *)
Lemma parse_gen_indep sf n s : parse_fuel s <= n -> fst (parse_doc sf n (start s)) = parse_gen sf s.
Proof.
  intros Hn. unfold parse_gen. destruct (mle_doc false _ n sf sf Hn (or_introl eq_refl) (start s)) as [(e & st & E & He)| ->]; [|reflexivity].
  exfalso. pose proof (parse_gen_fuel sf s) as F. unfold parse_gen in F. rewrite E in F. cbn in F. destruct e; try (destruct He; fail); [discriminate|congruence].
Qed.
Lemma parse_fuel_indep n s : parse_fuel s <= n -> fst (parse_doc false n (start s)) = parse s.
Proof. apply parse_gen_indep. Qed.
Lemma append_total c k it n : app_fuel c k it <= n -> append n Own false c k it true = cappend false c k it /\ cappend false c k it <> Err FuelE.
Proof.
  intros Hn. split; [|apply cappend_fuel]. unfold cappend.
  destruct (append_le false _ n Own false false c k it true Hn (or_introl eq_refl)) as [(e & E & He)|E]; [|exact E].
  exfalso. destruct e; try (destruct He; fail); [discriminate|]. eapply cappend_fuel; exact E.
Qed.
(** A strict run that does not refuse a lossy branch gives the result of [parse]. *)
Lemma parse_strict s : match parse_gen true s with Err (LossyE _) => True | r => parse s = r end.
Proof.
  unfold parse. pose proof (parse_gen_fuel true s) as F. unfold parse_gen in *.
  destruct (mle_doc true (parse_fuel s) (parse_fuel s) true false (le_n _) (or_intror (conj eq_refl eq_refl)) (start s)) as [(e & st & E & He)| ->].
  - rewrite E in *. cbn in *. destruct e; try (destruct He; fail); [exact I|congruence].
  - destruct (fst _) as [|[]]; auto.
Qed.
(** The exceptions of [parse]. *)
Lemma parse_err_gen nosp noaot short s e :
  (nosp = true -> no_indented_bracket s) -> (noaot = true -> no_double_bracket s) -> (short = true -> no_long_number s) ->
  parse s = Err e -> is_tomlkit_error e = true \/ (e = OverflowErrorE /\ short = false) \/ (e = AttributeErrorE /\ nosp = false)
    \/ (e = UnmodelledE /\ (nosp = false \/ noaot = false)).
Proof.
  intros H1 H2 H3 H. pose proof (parse_gen_fuel false s) as F. unfold parse in H. pose proof H as H0.
  apply (parse_err_ok s nosp noaot short false false) in H; auto. destruct e; cbn in *; auto; try contradiction; try congruence; try discriminate; tauto.
Qed.
Lemma parse_errors s e : parse s = Err e -> is_tomlkit_error e = true \/ e = OverflowErrorE \/ e = AttributeErrorE \/ e = UnmodelledE.
Proof. intros H. apply (parse_err_gen false false false) in H; try discriminate. tauto. Qed.
Lemma parse_errors_only s e : no_indented_bracket s -> no_double_bracket s -> no_long_number s -> parse s = Err e -> is_tomlkit_error e = true.
Proof. intros A B C H. apply (parse_err_gen true true true) in H; auto. destruct H as [H|[[_ H]|[[_ H]|[_ [H|H]]]]]; try discriminate; exact H. Qed.
Lemma parse_errors_overflow s e : no_indented_bracket s -> no_double_bracket s -> parse s = Err e -> is_tomlkit_error e = true \/ e = OverflowErrorE.
Proof. intros A B H. apply (parse_err_gen true true false) in H; auto; [|discriminate]. destruct H as [H|[[H _]|[[_ H]|[_ [H|H]]]]]; try discriminate; auto. Qed.
Lemma parse_errors_nolong s e : no_long_number s -> parse s = Err e -> is_tomlkit_error e = true \/ e = AttributeErrorE \/ e = UnmodelledE.
Proof. intros A H. apply (parse_err_gen false false true) in H; auto; try discriminate. destruct H as [H|[[_ H]|[[H _]|[H _]]]]; try discriminate; auto. Qed.
(** The conditions hold for a text whose only bracket-opening is its first character. *)
Lemma one_bracket_ok t : ~ In chLBR t -> no_indented_bracket (chLBR :: t) /\ no_double_bracket (chLBR :: t).
Proof.
  intros H. split; intros a w b E _ Hw.
  - destruct a as [|x a].
    + destruct w as [|y w]; [intros []|]. cbn in E. inversion E; subst. exfalso. apply H. apply in_or_app. right. left. reflexivity.
    + cbn in E. inversion E; subst. exfalso. apply H. apply in_or_app. right. apply in_or_app. right. left. reflexivity.
  - destruct a as [|x a].
    + destruct w as [|y w]; cbn in E; inversion E; subst; apply H; [left; reflexivity|]. apply in_or_app. right. left. reflexivity.
    + cbn in E. inversion E; subst. apply H. apply in_or_app. right. apply in_or_app. right. left. reflexivity.
Qed.
Lemma no_digits_ok s : (forall c, In c s -> is_ascii_digit c = false) -> no_long_number s.
Proof.
  intros H a d b E Hd. destruct d as [|x d]; [cbn; lia|]. inversion Hd; subst. rewrite H in H2; [discriminate|].
  apply in_or_app. right. left. reflexivity.
Qed.
