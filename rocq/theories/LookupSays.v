(** LookupSays: the lines of a text and the lookups in the parsed document (C39). *)
From Verif Require Import Base Source Utils Items Container Arrays Parser Api Lemmas Numbers Reader Text Grammar GramSound Consist Facts Meaning Says SaysDoc Lookup LookupFacts Local.
From Coq Require Import Permutation.
Open Scope nat_scope.

Definition plain_value (v : item) : Prop := match v with IVal _ _ | IArray _ _ _ | IInline _ _ _ => True | _ => False end.
Definition plainr (r : res item) : Prop := match r with Ok v => plain_value v | Err _ => True end.
Lemma signed_plain st : plainr (fst (parse_signed_value st)).
Proof. unfold parse_signed_value, bind, adv_whileM, extractM. destruct (parse_number _); exact I. Qed.
Lemma bindp {A} (m : M A) (f : A -> M item) st : (forall a s, plainr (fst (f a s))) -> plainr (fst (bind m f st)).
Proof. intros H. unfold bind. destruct (m st) as [[a|e] s]; [apply H|exact I]. Qed.
Lemma digit_plain st : plainr (fst (parse_digit_value st)).
Proof.
  unfold parse_digit_value. repeat first [apply bindp; intros ? ? | match goal with |- plainr (fst ((match ?x with _ => _ end) _)) => destruct x end | exact I ].
Qed.
Lemma plain_values n : (forall st, plainr (fst (parse_value false n st))) /\ (forall es p st, plainr (fst (array_loop false n es p st))) /\ (forall c t st, plainr (fst (inline_loop false n c t st))).
Proof.
  induction n as [|n (IV & IA & II)]; [repeat split; intros; exact I|]. split; [|split].
  - intros st. cbn [parse_value]. apply bindp; intros _ s. apply bindp; intros c s1.
    destruct (c =? chDQ)%N; [apply bindp; intros; exact I|]. destruct (c =? chSQ)%N; [apply bindp; intros; exact I|].
    destruct (c =? 116)%N; [unfold parse_bool, restore_on_err; destruct (bind _ _ s1) as [[v|e] s2] eqn:E; [|exact I]; unfold bind in E; destruct (consume_all _ s1) as [[u|e] s3]; [|discriminate]; injection E as <- <-; exact I|].
    destruct (c =? 102)%N; [unfold parse_bool, restore_on_err; destruct (bind _ _ s1) as [[v|e] s2] eqn:E; [|exact I]; unfold bind in E; destruct (consume_all _ s1) as [[u|e] s3]; [|discriminate]; injection E as <- <-; exact I|].
    destruct (c =? chLBR)%N; [apply bindp; intros; apply IA|]. destruct (c =? chLCB)%N; [apply bindp; intros; apply II|]. apply bindp; intros p s2. destruct (_ || _)%bool; [apply signed_plain|]. destruct (is_ascii_digit c); [apply digit_plain|exact I].
  - intros es p st. cbn [array_loop]. apply bindp; intros a s. apply bindp; intros _ s1. apply bindp; intros ind s2. apply bindp; intros c s3. destruct (existsb is_nl ind); [apply IA|]. destruct (c =? chHASH)%N; [apply bindp; intros [[? ?] ?] ?; apply IA|]. destruct (nonempty ind); [apply IA|]. cbv zeta.
    assert (N : forall s, plainr (fst ((c <- current ;; if match p with Some true => (c =? chCOMMA)%N | _ => false end then inc_exn KUnexpectedEof ;;; array_loop false n (es ++ [EWs [chCOMMA]]) (Some false) else if (c =? chRBR)%N then incM ;;; ret (IArray (group_values es) default_trivia false) else raise (KUnexpectedChar c)) s))).
    { intros s4. apply bindp; intros d s5. match goal with |- plainr (fst ((if ?b then _ else _) _)) => destruct b end; [apply bindp; intros; apply IA|]. destruct (d =? chRBR)%N; [apply bindp; intros; exact I|exact I]. }
    assert (P : plainr (fst (match parse_value false n s3 with (Ok v, st') => array_loop false n (es ++ [EVal v]) (Some true) st' | (Err (ParseErr (KUnexpectedChar _) _ _), st') => (c <- current ;; if match p with Some true => (c =? chCOMMA)%N | _ => false end then inc_exn KUnexpectedEof ;;; array_loop false n (es ++ [EWs [chCOMMA]]) (Some false) else if (c =? chRBR)%N then incM ;;; ret (IArray (group_values es) default_trivia false) else raise (KUnexpectedChar c)) st' | (Err e, st') => (Err e, st') end))).
    { destruct (parse_value false n s3) as [[v|e] s4]; [apply IA|]. destruct e as [[]| | | | | | | | | | | | | | ]; try exact I. apply N. }
    destruct p as [[]|]; [apply N|exact P|exact P].
  - intros c t st. cbn [inline_loop]. repeat (apply bindp; intros ? ?). match goal with |- plainr (fst ((if ?b then _ else _) _)) => destruct b end; [apply bindp; intros; exact I|]. match goal with |- plainr (fst ((if ?b then _ else _) _)) => destruct b end; [exact I|]. repeat (apply bindp; intros ? ?). match goal with |- plainr (fst ((if ?b then _ else _) _)) => destruct b end; [|apply II]. repeat (apply bindp; intros ? ?). apply II.
Qed.
Lemma value_plain x v : value_of x = Ok v -> plain_value v.
Proof.
  unfold value_of. unfold bind at 1. pose proof (proj1 (plain_values (parse_fuel x)) (start x)) as P. destruct (parse_value _ _ _) as [[u|e] s]; [|discriminate]. unfold bind, endM, current. destruct (at_end s); [|discriminate]. intros H. injection H as <-. exact P.
Qed.

(** What a value text is read as: the item [tomlkit.value] makes of it, the white
    space and comment around it apart. *)
Definition read_as (txt : str) (i : item) : Prop := exists v, value_of txt = Ok v /\ i = set_trivia default_trivia v.
Lemma read_HR n st v st' w : parse_value false n st = (Ok v, st') -> moved w st st' -> value_text true w -> stops st' -> read_as w (bare v).
Proof. intros E M _ _. exists v. split; [eapply value_local; eassumption|reflexivity]. Qed.
Definition same_value (i v : item) : Prop := set_trivia default_trivia i = set_trivia default_trivia v.
Lemma read_shown txt i : read_as txt (shown i) -> exists v, value_of txt = Ok v /\ same_value i v.
Proof.
  intros (v & E & H). exists v. split; [exact E|]. apply value_plain in E. unfold same_value. destruct i; cbn [shown] in H; try exact H; destruct v; try contradiction; discriminate.
Qed.
Lemma agree_below p l fs : Forall2 (agree read_as) l fs -> Forall2 (agree read_as) (below p l) (below p fs).
Proof.
  intros H. induction H as [|[q a] [q' b] l fs [H1 H2] H IH]; [constructor|]. cbn [fst snd] in H1, H2. subst q'. change (below p ((q, a) :: l)) with ((match strip_path p q with Some r => [(r, a)] | None => [] end) ++ below p l). change (below p ((q, b) :: fs)) with ((match strip_path p q with Some r => [(r, b)] | None => [] end) ++ below p fs).
  destruct (strip_path p q) as [r|]; [|exact IH]. cbn [app]. constructor; [split; [reflexivity|exact H2]|exact IH].
Qed.
Definition answer (l : list (list str * option str)) (p : list str) (r : res found) : Prop :=
  match r with
  | Ok (FValue it rest) => exists q txt v, p = q ++ rest /\ below q l = [([], Some txt)] /\ value_of txt = Ok v /\ same_value it v
  | Ok (FTable _) => (p <> [] -> below p l <> []) /\ (forall txt, ~ In (p, Some txt) l)
  | Err (NonExistentKeyE _) => below p l = []
  | Err FuelE => False
  | Err _ => True
  end.
Lemma in_below {A} p q a (l : list (list str * A)) : In (q, a) (below p l) <-> In (p ++ q, a) l.
Proof.
  unfold below. rewrite in_flat_map. split.
  - intros ((y & b) & H & K). cbn [fst snd] in K. destruct (strip_path p y) as [r|] eqn:E; [|destruct K]. destruct K as [K|[]]. injection K as <- <-. apply strip_path_some in E as ->. exact H.
  - intros H. exists (p ++ q, a). split; [exact H|]. cbn [fst snd]. destruct (strip_path p (p ++ q)) as [r|] eqn:E.
    + apply strip_path_some in E. apply app_inv_head in E as <-. left; reflexivity.
    + exfalso. assert (strip_path p (p ++ q) = Some q) by (apply strip_path_some; reflexivity). congruence.
Qed.
Lemma agree_perm_nil p l fs fs' : Permutation fs fs' -> Forall2 (agree read_as) l fs' -> below p fs = [] -> below p l = [].
Proof.
  intros P F H. pose proof (agree_below p _ _ F) as B. pose proof (below_perm p _ _ P) as Q. rewrite H in Q. apply Permutation_nil in Q. rewrite Q in B. inversion B. reflexivity.
Qed.
Lemma root_plain d p own c' : only_none own -> Permutation (below p (facts d)) (own ++ facts c') -> forall i, ~ In ([], Some i) (below p (facts d)).
Proof.
  intros O P i H. apply (Permutation_in _ P) in H. apply in_app_iff in H as [H|H].
  - unfold only_none in O. rewrite Forall_forall in O. apply O in H. discriminate.
  - rewrite facts_body in H. apply in_flat_map in H as ([[k|] v] & _ & H); [|destruct H]. cbn [efacts] in H. unfold under in H. apply in_map_iff in H as (f & K & _). discriminate.
Qed.
Lemma document_answers s d : parse s = Ok d -> exists l, document_says true s l /\ (no_element l -> forall p, answer (said [] l) p (walk d p)).
Proof.
  intros H. destruct (parsed_says read_as read_HR s d H) as (l & D & A). exists l. split; [exact D|]. intros Hn p. destruct (A Hn) as [T (fs & P & F)]. pose proof (walk_f p d T) as W. destruct (walk d p) as [[c'|it rest]|e]; cbn [answer].
  - destruct W as (_ & Nn & own & O & Pw). split.
    + intros Hp K. apply (Nn Hp). pose proof (agree_below p _ _ F) as B. rewrite K in B. assert (E0 : below p fs = []) by (destruct (below p fs); [reflexivity|inversion B]). pose proof (below_perm p _ _ P) as Q. rewrite E0 in Q. apply Permutation_nil. symmetry. exact Q.
    + intros txt K. pose proof (agree_below p _ _ F) as B. assert (K' : In ([], Some txt) (below p (said [] l))) by (apply in_below; rewrite app_nil_r; exact K).
      assert (X : exists i, In ([], Some i) (below p fs)).
      { clear -B K'. induction B as [|[q a] [q' b] u v [H1 H2] B IH]; [destruct K'|]. cbn [fst snd] in *. destruct K' as [K'|K']; [|destruct (IH K') as [i Hi]; exists i; right; exact Hi]. injection K' as -> ->. subst q'. destruct b as [b|]; [|destruct H2]. exists b. left; reflexivity. }
      destruct X as [i Hi]. apply (root_plain d p own c' O Pw i). eapply Permutation_in; [symmetry; apply (below_perm p _ _ P)|exact Hi].
  - destruct W as (q & -> & Hq & E). pose proof (agree_below q _ _ F) as B. pose proof (below_perm q _ _ P) as Q. rewrite E in Q. apply Permutation_length_1_inv in Q. rewrite Q in B. inversion B as [|[q0 a] ? l0 ? [H1 H2] B0 Eq Eq2]; subst. inversion B0; subst. cbn [fst snd] in *. subst q0. destruct a as [txt|]; [|destruct H2]. apply read_shown in H2 as (v & Hv & Sv). exists q, txt, v. auto.
  - destruct e; try exact I; try (destruct W; fail). eapply agree_perm_nil; eassumption.
Qed.
(** Strings mean what their text says. *)
Definition nostr (r : res item) : Prop := match r with Ok (IVal (SStr _ _ _) _) => False | _ => True end.
Lemma bindn {A} (m : M A) (f : A -> M item) st : (forall a s, nostr (fst (f a s))) -> nostr (fst (bind m f st)).
Proof. intros H. unfold bind. destruct (m st) as [[a|e] s]; [apply H|exact I]. Qed.
Lemma number_nostr raw v : parse_number raw = Some v -> match v with SStr _ _ _ => False | _ => True end.
Proof.
  unfold parse_number. intros H. repeat match goal with H : (let '(_, _) := ?x in _) = _ |- _ => destruct x | H : (if ?x then _ else _) = _ |- _ => destruct x | H : (match ?x with _ => _ end) = _ |- _ => destruct x end; try discriminate; injection H as <-; exact I.
Qed.
Lemma word_nostr st : nostr (fst (parse_signed_value st)) /\ nostr (fst (parse_digit_value st)).
Proof.
  assert (N : forall raw s, nostr (fst ((match parse_number raw with Some v => ret (scalar_item v) | None => raise KInvalidNumber end) s))).
  { intros raw s. destruct (parse_number raw) as [v|] eqn:E; [|exact I]. apply number_nostr in E. destruct v; try exact I. destruct E. }
  split; [unfold parse_signed_value; repeat (apply bindn; intros ? ?); apply N|]. unfold parse_digit_value. apply bindn; intros _ s. apply bindn; intros raw s1.
  destruct (loose_match raw) as [[[] []]|]; try apply N; repeat first [apply bindn; intros ? ? | match goal with |- nostr (fst ((match ?x with _ => _ end) _)) => destruct x end | exact I ].
Qed.
Lemma loops_nostr n : (forall es p st, nostr (fst (array_loop false n es p st))) /\ (forall c t st, nostr (fst (inline_loop false n c t st))).
Proof.
  induction n as [|n (IA & II)]; [split; intros; exact I|]. split.
  - intros es p st. cbn [array_loop]. apply bindn; intros a s. apply bindn; intros _ s1. apply bindn; intros ind s2. apply bindn; intros c s3. destruct (existsb is_nl ind); [apply IA|]. destruct (c =? chHASH)%N; [apply bindn; intros [[? ?] ?] ?; apply IA|]. destruct (nonempty ind); [apply IA|]. cbv zeta.
    assert (N : forall s, nostr (fst ((c <- current ;; if match p with Some true => (c =? chCOMMA)%N | _ => false end then inc_exn KUnexpectedEof ;;; array_loop false n (es ++ [EWs [chCOMMA]]) (Some false) else if (c =? chRBR)%N then incM ;;; ret (IArray (group_values es) default_trivia false) else raise (KUnexpectedChar c)) s))).
    { intros s4. apply bindn; intros d s5. match goal with |- nostr (fst ((if ?b then _ else _) _)) => destruct b end; [apply bindn; intros; apply IA|]. destruct (d =? chRBR)%N; [apply bindn; intros; exact I|exact I]. }
    assert (P : nostr (fst (match parse_value false n s3 with (Ok v, st') => array_loop false n (es ++ [EVal v]) (Some true) st' | (Err (ParseErr (KUnexpectedChar _) _ _), st') => (c <- current ;; if match p with Some true => (c =? chCOMMA)%N | _ => false end then inc_exn KUnexpectedEof ;;; array_loop false n (es ++ [EWs [chCOMMA]]) (Some false) else if (c =? chRBR)%N then incM ;;; ret (IArray (group_values es) default_trivia false) else raise (KUnexpectedChar c)) st' | (Err e, st') => (Err e, st') end))).
    { destruct (parse_value false n s3) as [[v|e] s4]; [apply IA|]. destruct e as [[]| | | | | | | | | | | | | | ]; try exact I. apply N. }
    destruct p as [[]|]; [apply N|exact P|exact P].
  - intros c t st. cbn [inline_loop]. repeat (apply bindn; intros ? ?). match goal with |- nostr (fst ((if ?b then _ else _) _)) => destruct b end; [apply bindn; intros; exact I|]. match goal with |- nostr (fst ((if ?b then _ else _) _)) => destruct b end; [exact I|]. repeat (apply bindn; intros ? ?). match goal with |- nostr (fst ((if ?b then _ else _) _)) => destruct b end; [|apply II]. repeat (apply bindn; intros ? ?). apply II.
Qed.
Lemma value_string x d m o t : value_of x = Ok (IVal (SStr d m o) t) -> exists basic ml, string_says basic ml x m.
Proof.
  intros H. unfold value_of in H. unfold bind at 1 in H. destruct (parse_value false (parse_fuel x) (start x)) as [[v|e] s1] eqn:E; [|discriminate]. unfold bind, endM, current in H. destruct (at_end s1) eqn:Ee; [|discriminate]. injection H as ->.
  assert (C : forall ty, st_multiline ty = false -> (v <- restore_on_err (parse_string (4 * List.length x + 15) ty) ;; ret (str_item v)) (set_mark (start x)) = (Ok (IVal (SStr d m o) t), s1) -> exists basic ml, string_says basic ml x m).
  { intros ty Hty K. unfold bind, restore_on_err in K. destruct (parse_string _ ty _) as [[r|e] s2] eqn:Q; [|discriminate]. injection K as -> _ ->. apply string_says_read in Q as (ml & w & m' & M & W & Wv & _); [|exact Hty]. cbn [str_val] in Wv. subst m'. exists (st_basic ty), ml. destruct M as [M _]. cbn [set_mark start p_rest] in M. unfold at_end in Ee. destruct (p_rest s1); [|discriminate]. rewrite app_nil_r in M. subst w. exact W. }
  assert (N : forall m0 : res item * pst, nostr (fst m0) -> m0 = (Ok (IVal (SStr d m o) t), s1) -> exists basic ml, string_says basic ml x m) by (intros m0 K ->; destruct K).
  unfold parse_fuel in E. replace (4 * List.length x + 16) with (S (4 * List.length x + 15)) in E by lia. cbn [parse_value] in E. unfold bind at 1, mark in E. unfold bind at 1, current in E. set (c := cur (set_mark (start x))) in E.
  destruct (c =? chDQ)%N; [apply (C SLB eq_refl E)|]. destruct (c =? chSQ)%N; [apply (C SLL eq_refl E)|].
  destruct (c =? 116)%N. { eapply N; [|exact E]. unfold parse_bool, restore_on_err, bind. destruct (consume_all _ _) as [[u|e] s3]; exact I. }
  destruct (c =? 102)%N. { eapply N; [|exact E]. unfold parse_bool, restore_on_err, bind. destruct (consume_all _ _) as [[u|e] s3]; exact I. }
  destruct (c =? chLBR)%N. { eapply N; [|exact E]. apply bindn. intros. apply (proj1 (loops_nostr _)). }
  destruct (c =? chLCB)%N. { eapply N; [|exact E]. apply bindn. intros. apply (proj2 (loops_nostr _)). }
  eapply N; [|exact E]. apply bindn. intros p s2. match goal with |- nostr (fst ((if ?b then _ else _) _)) => destruct b end; [apply word_nostr|]. destruct (is_ascii_digit c); [apply word_nostr|exact I].
Qed.
Lemma below_one p q txt (l : list (list str * option str)) a : below q l = [([], a)] -> In (q ++ p, Some txt) l -> p = [] /\ a = Some txt.
Proof. intros E H. apply in_below in H. rewrite E in H. destruct H as [H|[]]. injection H as <- ->. auto. Qed.
Lemma document_values s d : parse s = Ok d -> exists l, document_says true s l /\ (no_element l -> forall p txt, In (p, Some txt) (said [] l) ->
    match walk d p with
    | Ok (FValue it rest) => rest = [] /\ exists v, value_of txt = Ok v /\ same_value it v
    | Ok (FTable _) | Err (NonExistentKeyE _) | Err FuelE => False
    | Err _ => True
    end).
Proof.
  intros H. destruct (document_answers s d H) as (l & D & A). exists l. split; [exact D|]. intros Hn p txt K. specialize (A Hn p). unfold answer in A. destruct (walk d p) as [[c'|it rest]|e].
  - destruct A as [_ A]. exact (A txt K).
  - destruct A as (q & txt' & v & -> & E & Hv & Sv). destruct (below_one _ _ _ _ _ E K) as [-> E2]. injection E2 as ->. split; [reflexivity|]. exists v. auto.
  - destruct e; try exact I; try exact A. assert (In ([], Some txt) (below p (said [] l))) as X by (apply in_below; rewrite app_nil_r; exact K). rewrite A in X. exact X.
Qed.
(** Without "[[" there are no arrays of tables. *)
Definition no_aot_text (s : str) : Prop := forall x y, s <> x ++ [91; 91]%N ++ y.
Lemma no_aot_sub a b c : no_aot_text (a ++ b ++ c) -> no_aot_text b.
Proof. intros H x y ->. apply (H (a ++ x) (y ++ c)). rewrite <- !app_assoc. reflexivity. Qed.
Lemma line_no_element lax closed w l : line_says lax closed w l -> no_aot_text w -> no_element l.
Proof.
  intros H N ns K. destruct H as [? t _|? a k ns0 s v t _ _ _ _ _|? a k ns0 t _ _ _|? a k ns0 x t _ _ _ _]; try (destruct K as [K|[]]; discriminate); [destruct K|]. apply (N a (k ++ [93]%N ++ x ++ t)). reflexivity.
Qed.
Lemma lines_no_element lax w l : lines_say lax w l -> no_aot_text w -> no_element l.
Proof.
  intros H. induction H as [|w l a b H IH Hl]; intros N ns K; [destruct K|]. apply in_app_iff in K as [K|K].
  - apply (IH (no_aot_sub [] w l N) ns K).
  - assert (Nl : no_aot_text l) by (apply (no_aot_sub w l []); rewrite app_nil_r; exact N). exact (line_no_element _ _ _ _ Hl Nl ns K).
Qed.
Lemma document_no_element lax w l : document_says lax w l -> no_aot_text w -> no_element l.
Proof.
  intros [H|(u & v & a & b & -> & H & Hv & ->)] N; [eapply lines_no_element; eassumption|]. intros ns K. apply in_app_iff in K as [K|K].
  - exact (lines_no_element _ _ _ H (no_aot_sub [] u v N) ns K).
  - assert (Nl : no_aot_text v) by (apply (no_aot_sub u v []); rewrite app_nil_r; exact N). exact (line_no_element _ _ _ _ Hv Nl ns K).
Qed.
Lemma plain_answers s d : parse s = Ok d -> no_aot_text s -> exists l, document_says true s l /\ forall p, answer (said [] l) p (walk d p).
Proof. intros H N. destruct (document_answers s d H) as (l & D & A). exists l. split; [exact D|]. apply A. eapply document_no_element; eassumption. Qed.
