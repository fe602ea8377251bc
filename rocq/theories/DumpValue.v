(** DumpValue: every value text written by [dumps] reads back as its value. *)
From Verif Require Import Base Source Utils Items Container Arrays Parser Api Lemmas Escape Strings StringRT StringApi Numbers Floats Dates Keys Reader Consist OMap ContOps Wf Mono ListSpec ArrayLemmas ItemInd PyVal PyItem ItemConv DumpText DumpCont.
From Coq Require Import ZifyBool ZifyNat ZifyN Permutation.
Open Scope nat_scope.

(** The Python values: dates and times are those [datetime] can hold. *)
Definition scalar_fine (v : pyv) : Prop :=
  match v with
  | PDate d => real_day (d_year d) (d_month d) (d_day d)
  | PTime t => valid_time_p t
  | PDateTime d => real_day (d_year (dt_date d)) (d_month (dt_date d)) (d_day (dt_date d)) /\ valid_time_p (dt_time d) /\ off_ok (dt_off d)
  | PList _ | PDict _ => False
  | _ => True
  end.
Inductive py_fine : pyv -> Prop :=
  | pf_scalar v : scalar_fine v -> py_fine v
  | pf_list l : Forall py_fine l -> py_fine (PList l)
  | pf_dict l : NoDup (map fst l) -> Forall (fun kv => py_fine (snd kv)) l -> py_fine (PDict l).

(** * Fuel *)
Lemma mle_up {A} (p p' : M A) st a st' : mle false p p' -> p st = (Ok a, st') -> p' st = (Ok a, st').
Proof. intros H E. destruct (H st) as [(e & s & E' & _)|E']; congruence. Qed.
Lemma sle_f : sle false false false. Proof. left. reflexivity. Qed.
Lemma value_up {sf} n n' st a st' : n <= n' -> parse_value sf n st = (Ok a, st') -> parse_value sf n' st = (Ok a, st').
Proof. intros H. apply mle_up, mle_value; [exact H|left; reflexivity]. Qed.
Lemma array_up {sf} n n' e p st a st' : n <= n' -> array_loop sf n e p st = (Ok a, st') -> array_loop sf n' e p st = (Ok a, st').
Proof. intros H. apply mle_up. apply (proj1 (proj2 (mle_values false n n' sf sf H (or_introl eq_refl)))). Qed.
Lemma inline_up {sf} n n' e p st a st' : n <= n' -> inline_loop sf n e p st = (Ok a, st') -> inline_loop sf n' e p st = (Ok a, st').
Proof. intros H. apply mle_up. apply (proj2 (proj2 (mle_values false n n' sf sf H (or_introl eq_refl)))). Qed.

(** * The first character of a value *)
Definition vstart (c : char) : bool := is_quote c || existsb (N.eqb c) [116; 102; 91; 123; 43; 45; 105; 110]%N || is_ascii_digit c.
Lemma value_start s n st v st' : parse_value s n st = (Ok v, st') -> exists c r, p_rest st = c :: r /\ vstart c = true.
Proof.
  destruct n as [|n]; [discriminate|]. cbn [parse_value]. unfold bind at 1, mark. unfold bind at 1, current, cur. cbn [set_mark p_rest].
  destruct (p_rest st) as [|c r] eqn:E; intros H.
  { exfalso. revert H. change (chNUL =? chDQ)%N with false. change (chNUL =? chSQ)%N with false. change (chNUL =? 116)%N with false. change (chNUL =? 102)%N with false.
    change (chNUL =? chLBR)%N with false. change (chNUL =? chLCB)%N with false. cbv iota. unfold bind, peek. cbn [set_mark p_rest]. rewrite E. discriminate. }
  exists c, r. split; [reflexivity|]. unfold vstart, is_quote. cbn [existsb].
  destruct (c =? chDQ)%N eqn:Q1; [reflexivity|]. destruct (c =? chSQ)%N eqn:Q2; [reflexivity|]. destruct (c =? 116)%N eqn:Q3; [reflexivity|]. destruct (c =? 102)%N eqn:Q4; [reflexivity|].
  destruct (c =? chLBR)%N eqn:Q5; [unfold chLBR in Q5; rewrite Q5; reflexivity|]. destruct (c =? chLCB)%N eqn:Q6; [unfold chLCB in Q6; rewrite Q6, ?orb_true_r; reflexivity|].
  unfold bind at 1, peek in H. cbn [set_mark p_rest] in H. rewrite E in H. unfold chPLUS, chMINUS in H.
  destruct (c =? 43)%N eqn:Z1; [rewrite ?orb_true_r; reflexivity|]. destruct (c =? 45)%N eqn:Z2; [rewrite ?orb_true_r; reflexivity|]. cbn [orb] in H |- *.
  destruct (is_ascii_digit c) eqn:Qd; [rewrite ?orb_true_r; reflexivity|]. destruct (existsb _ special_floats) eqn:Qs in H; [|discriminate H].
  cbn [peek_loop] in Qs. destruct (is_val_delim c || (c =? chNUL)%N); [discriminate Qs|]. unfold special_floats in Qs. cbn [existsb] in Qs.
  change (L "+inf") with [43; 105; 110; 102]%N in Qs. change (L "-inf") with [45; 105; 110; 102]%N in Qs. change (L "inf") with [105; 110; 102]%N in Qs.
  change (L "+nan") with [43; 110; 97; 110]%N in Qs. change (L "-nan") with [45; 110; 97; 110]%N in Qs. change (L "nan") with [110; 97; 110]%N in Qs.
  cbn [str_eqb] in Qs. destruct (c =? 105)%N; [rewrite ?orb_true_r; reflexivity|]. destruct (c =? 110)%N; [rewrite ?orb_true_r; reflexivity|].
  rewrite Z1, Z2 in Qs. discriminate Qs.
Qed.
Lemma vstart_facts c : vstart c = true -> is_ws c = false /\ is_spaces c = false /\ is_kv_sep c = false /\ c <> chHASH.
Proof.
  unfold vstart, is_quote, is_ascii_digit, is_ws, is_spaces, is_nl, is_kv_sep, chHASH, chDQ, chSQ, chSP, chTAB, chLF, chCR, chEQ. cbn [existsb]. lia.
Qed.

(** * What reading a value text means *)
Definition vtail (tail : str) : Prop := match tail with c :: _ => In c [chCOMMA; chRBR; chRCB; chLF] | [] => False end.
Definition reads_v (w : str) (v : pyv) : Prop := forall tail, vtail tail -> exists n it v',
  (forall pre mk, exists mk', parse_value false n (mkSt pre (w ++ tail) mk) = (Ok it, mkSt (pre ++ w) tail mk'))
  /\ plain it /\ sunwrap it = Some v' /\ pyeq v v'.
Lemma reads_v_start w v : reads_v w v -> exists c r, w = c :: r /\ vstart c = true.
Proof.
  intros H. destruct (H [chLF]) as (n & it & v' & E & _); [cbn; tauto|]. destruct (E [] 0) as [mk' E'].
  destruct (value_start _ _ _ _ _ E') as (c & r & E1 & E2). cbn [p_rest] in E1. destruct w as [|a w]; [cbn in E1; inversion E1; subst; discriminate|].
  inversion E1; subst. eauto.
Qed.
Lemma reads_scalar w it (okt : str -> Prop) v v' : reads_as w it okt -> (forall tail, vtail tail -> okt tail) -> plain it -> sunwrap it = Some v' -> pyeq v v' -> reads_v w v.
Proof.
  intros R T P U Q tail Ht. exists (S (List.length w)), it, v'. split; [|auto]. intros pre mk. apply R; [apply T, Ht|lia].
Qed.
Lemma vtail_delim tail : vtail tail -> delim_tail tail.
Proof. destruct tail as [|c r]; [intros []|]. cbn. intros [<-|[<-|[<-|[<-|[]]]]]; reflexivity. Qed.
Lemma vtail_date tail : vtail tail -> date_tail tail.
Proof. destruct tail as [|c r]; [intros []|]. cbn. intros [<-|[<-|[<-|[<-|[]]]]]; reflexivity. Qed.
Lemma vtail_quote tail : vtail tail -> no_quote chDQ tail.
Proof. destruct tail as [|c r]; [intros []|]. cbn. intros [<-|[<-|[<-|[<-|[]]]]]; discriminate. Qed.
Lemma scalar_reads nw v : scalar_fine v -> reads_v (vtext nw v) v.
Proof.
  destruct v as [s|z|b|f|d|t|d| | ]; cbn [scalar_fine]; intros H; try (destruct H; fail); cbn [vtext].
  - rewrite esc_slb. eapply reads_scalar; [apply reads_slb|apply vtail_quote|exact I|reflexivity|constructor].
  - destruct (dec_Z_ok z) as (it & _ & V & _ & R). destruct it as [ | | |sv t| | | | ]; try discriminate V. destruct sv; try discriminate V. cbn in V. inversion V; subst.
    eapply reads_scalar; [exact R|apply vtail_delim|exact I|reflexivity|constructor].
  - eapply reads_scalar; [exact (reads_bool b)|tauto|exact I|reflexivity|constructor].
  - destruct (float_text_ok f) as (g & Q & _ & R). eapply reads_scalar; [exact R|apply vtail_delim|exact I|reflexivity|constructor; exact Q].
  - eapply reads_scalar; [apply reads_date; exact H|apply vtail_date|exact I|reflexivity|constructor].
  - eapply reads_scalar; [apply reads_time; exact H|apply vtail_delim|exact I|reflexivity|constructor].
  - rewrite replace_datetime by apply H. eapply reads_scalar; [apply reads_datetime; exact H|apply vtail_delim|exact I|reflexivity|constructor].
Qed.

(** * Arrays *)
Definition shows_as (v : pyv) (it : item) : Prop := plain it /\ exists v', sunwrap it = Some v' /\ pyeq v v'.
Lemma idx_since pre w rest mk : since (List.length pre) (mkSt (pre ++ w) rest mk) = (Ok w, mkSt (pre ++ w) rest mk).
Proof. unfold since. cbn [p_pre]. rewrite skipn_length_app. reflexivity. Qed.
Lemma adv_none p pre c r mk : p c = false -> adv_while p (mkSt pre (c :: r) mk) = mkSt pre (c :: r) mk.
Proof. intros H. unfold adv_while. cbn [p_pre p_rest p_mark take_while drop_while]. rewrite H, app_nil_r. reflexivity. Qed.
(** one step of [array_loop] at a character that is neither whitespace nor '#' *)
Lemma array_at strict n elems prev pre c r mk : is_ws c = false -> c <> chHASH ->
  array_loop strict (S n) elems prev (mkSt pre (c :: r) mk) =
  (let next : M item :=
          c <- current ;;
          if match prev with Some true => (c =? chCOMMA)%N | _ => false end then
            inc_exn KUnexpectedEof ;;; array_loop strict n (elems ++ [EWs [chCOMMA]]) (Some false)
          else if (c =? chRBR)%N then
            incM ;;; ret (IArray (group_values elems) default_trivia false)
          else raise (KUnexpectedChar c) in
        match prev with
        | Some true => next
        | _ =>
            fun st =>
              match parse_value strict n st with
              | (Ok v, st') =>
                  if strict && nonempty (tr_cws (item_trivia v)) then (Err (LossyE 2), st')
                  else array_loop strict n (elems ++ [EVal v]) (Some true) st'
              | (Err (ParseErr (KUnexpectedChar _) _ _), st') =>
                  if strict && negb (Nat.eqb (idx st') (idx st)) && (cur st' =? chRBR)%N then (Err (LossyE 4), st')
                  else next st'
              | (Err e, st') => (Err e, st')
              end
        end) (mkSt pre (c :: r) mk).
Proof.
  intros W H. cbn [array_loop]. unfold bind at 1, idxM, idx. cbn [p_pre]. unfold bind at 1, adv_whileM. rewrite adv_none by exact W.
  unfold bind at 1, since. cbn [p_pre]. rewrite skipn_all. unfold bind at 1, current at 1, cur at 1. cbn [p_rest existsb nonempty].
  apply N.eqb_neq in H. rewrite H. reflexivity.
Qed.
Lemma array_space strict n elems prev pre c r mk : is_ws c = false -> c <> chHASH ->
  array_loop strict (S n) elems prev (mkSt pre (chSP :: c :: r) mk) = array_loop strict n (elems ++ [EWs [chSP]]) prev (mkSt (pre ++ [chSP]) (c :: r) mk).
Proof.
  intros W H. cbn [array_loop]. unfold bind at 1, idxM, idx. cbn [p_pre]. unfold bind at 1, adv_whileM, adv_while. cbn [p_pre p_rest p_mark].
  cbn [take_while drop_while]. change (is_ws chSP) with true. cbv iota. rewrite W. unfold bind at 1. rewrite idx_since. unfold bind at 1, current at 1, cur at 1. cbn [p_rest].
  change (existsb is_nl [chSP]) with false. cbv iota. apply N.eqb_neq in H. rewrite H. reflexivity.
Qed.
Lemma array_close strict n elems pre r mk :
  array_loop strict (S n) elems (Some true) (mkSt pre (chRBR :: r) mk) = (Ok (IArray (group_values elems) default_trivia false), mkSt (pre ++ [chRBR]) r mk).
Proof.
  rewrite array_at; [|reflexivity|discriminate]. cbv zeta. unfold bind at 1, current, cur. cbn [p_rest]. change (chRBR =? chCOMMA)%N with false. change (chRBR =? chRBR)%N with true. cbv iota.
  unfold bind, incM, inc. cbn [p_rest p_pre p_mark]. destruct r; reflexivity.
Qed.
Lemma array_comma strict n elems pre c r mk :
  array_loop strict (S n) elems (Some true) (mkSt pre (chCOMMA :: c :: r) mk) = array_loop strict n (elems ++ [EWs [chCOMMA]]) (Some false) (mkSt (pre ++ [chCOMMA]) (c :: r) mk).
Proof.
  rewrite array_at; [|reflexivity|discriminate]. cbv zeta. unfold bind at 1, current, cur. cbn [p_rest]. change (chCOMMA =? chCOMMA)%N with true. cbv iota. reflexivity.
Qed.
(** a value where one is due, then what follows *)
Lemma array_value elems prev w v tail : prev <> Some true -> reads_v w v -> vtail tail ->
  exists m it, shows_as v it /\
    forall pre mk, exists mk', forall k, m <= k -> array_loop false (S k) elems prev (mkSt pre (w ++ tail) mk) = array_loop false k (elems ++ [EVal it]) (Some true) (mkSt (pre ++ w) tail mk').
Proof.
  intros P R T. destruct (reads_v_start w v R) as (c & r & E & V). destruct (R tail T) as (m & it & v' & F & Pl & U & Q). exists m, it. split; [split; eauto|].
  intros pre mk. destruct (F pre mk) as [mk' F']. exists mk'. intros k Hk. apply (value_up m k) in F'; [|exact Hk].
  subst w. cbn [app] in F' |- *. destruct (vstart_facts c V) as (W & _ & _ & H). rewrite array_at by assumption. cbv zeta.
  destruct prev as [[|]|]; [congruence| |]; rewrite F'; reflexivity.
Qed.
Lemma array_rest ws vs tail : Forall2 reads_v ws vs -> forall elems, exists m its, Forall2 shows_as vs its /\
  exists elems', vals elems' = vals elems ++ its /\ forall pre mk, exists mk',
    array_loop false m elems (Some true) (mkSt pre (flat_map (fun w => L ", " ++ w) ws ++ chRBR :: tail) mk)
    = (Ok (IArray (group_values elems') default_trivia false), mkSt (pre ++ flat_map (fun w => L ", " ++ w) ws ++ [chRBR]) tail mk').
Proof.
  induction 1 as [|w v ws vs R F IH]; intros elems.
  - exists 1, []. split; [constructor|]. exists elems. rewrite app_nil_r. split; [reflexivity|]. intros pre mk. exists mk. cbn [flat_map app]. rewrite array_close. reflexivity.
  - set (t := flat_map (fun w => L ", " ++ w) ws ++ chRBR :: tail).
    assert (T : vtail t) by (subst t; destruct ws; cbn; tauto).
    destruct (array_value ((elems ++ [EWs [chCOMMA]]) ++ [EWs [chSP]]) (Some false) w v t) as (m1 & it & S1 & H1); [discriminate|exact R|exact T|].
    destruct (IH (((elems ++ [EWs [chCOMMA]]) ++ [EWs [chSP]]) ++ [EVal it])) as (m2 & its & S2 & elems' & Ev & H2).
    exists (S (S (S (m1 + m2)))), (it :: its). split; [constructor; assumption|]. exists elems'. split.
    { rewrite Ev. unfold vals. rewrite !flat_map_app. cbn [flat_map]. rewrite !app_nil_r, <- app_assoc. reflexivity. }
    intros pre mk. destruct (reads_v_start w v R) as (c & r & Ew & V). destruct (vstart_facts c V) as (W & _ & _ & Hh).
    destruct (H1 ((pre ++ [chCOMMA]) ++ [chSP]) mk) as [mk1 H1']. destruct (H2 (((pre ++ [chCOMMA]) ++ [chSP]) ++ w) mk1) as [mk2 H2']. exists mk2.
    replace (flat_map (fun w0 => L ", " ++ w0) (w :: ws) ++ chRBR :: tail) with (chCOMMA :: chSP :: w ++ t) by (subst t; cbn [flat_map]; rewrite <- !app_assoc; reflexivity).
    rewrite array_comma.
    assert (X : w ++ t = c :: r ++ t) by (rewrite Ew; reflexivity). rewrite X, array_space, <- X by assumption. rewrite H1' by lia.
    apply (array_up m2 (m1 + m2)) in H2'; [|lia]. subst t. rewrite H2'. f_equal. f_equal. cbn [flat_map]. rewrite <- !app_assoc. reflexivity.
Qed.
Lemma shows_vals vs its : Forall2 shows_as vs its -> exists r, seqopt (map sunwrap its) = Some r /\ Forall2 pyeq vs r.
Proof.
  induction 1 as [|v it vs its (P & v' & U & Q) F (r & E & G)]; [exists []; split; [reflexivity|constructor]|]. exists (v' :: r). cbn [map seqopt]. rewrite U, E. split; [reflexivity|constructor; assumption].
Qed.
Lemma plain_real it : plain it -> real it.
Proof. destruct it; cbn; tauto. Qed.
Lemma array_item vs its elems : Forall2 shows_as vs its -> vals elems = its -> exists r, sunwrap (IArray (group_values elems) default_trivia false) = Some (PList r) /\ Forall2 pyeq vs r.
Proof.
  intros F E. destruct (shows_vals vs its F) as (r & S1 & Q). exists r. split; [|exact Q]. rewrite sunwrap_array.
  assert (Er : elems_real elems). { unfold elems_real. rewrite E. clear -F. induction F as [|v it vs its (P & _) F IH]; constructor; [apply plain_real, P|exact IH]. }
  rewrite shown_reals; rewrite (group_values_reals _ Er); [rewrite E, S1; reflexivity|exact Er].
Qed.
Lemma join_cons sep (w : str) ws : join sep (w :: ws) = w ++ flat_map (fun x => sep ++ x) ws.
Proof. revert w. induction ws as [|x ws IH]; intros w; [cbn; rewrite app_nil_r; reflexivity|]. cbn [flat_map]. rewrite <- app_assoc, <- IH. reflexivity. Qed.
Lemma value_lbr s n pre c r mk : parse_value s (S n) (mkSt pre (chLBR :: c :: r) mk) = array_loop s n [] None (mkSt (pre ++ [chLBR]) (c :: r) (List.length pre)).
Proof. reflexivity. Qed.
Lemma array_reads ws vs : Forall2 reads_v ws vs -> reads_v ([chLBR] ++ join (L ", ") ws ++ [chRBR]) (PList vs).
Proof.
  intros F tail T. destruct F as [|w v ws vs R F].
  - exists 3. exists (IArray (group_values []) default_trivia false), (PList []). split; [|split; [exact I|split; [reflexivity|constructor; constructor]]].
    intros pre mk. exists (List.length (pre ++ [chLBR])). cbn [app join]. destruct tail as [|c tail]; [destruct T|]. change (chLBR :: chRBR :: c :: tail) with (chLBR :: chRBR :: (c :: tail)). rewrite value_lbr.
    rewrite array_at; [|reflexivity|discriminate]. cbv zeta beta iota.
    assert (P : forall p r m, parse_value false 1 (mkSt p (chRBR :: r) m) = (Err (parse_error (KUnexpectedChar chRBR) (mkSt p (chRBR :: r) (List.length p))), mkSt p (chRBR :: r) (List.length p))) by (intros; reflexivity).
    rewrite P. unfold parse_error. destruct (to_linecol _ _). cbn [andb]. unfold bind at 1, current, cur. cbn [p_rest]. change (chRBR =? chRBR)%N with true. cbv iota.
    unfold bind, incM, inc. cbn [p_rest p_pre p_mark]. rewrite <- app_assoc. reflexivity.
  - set (t := flat_map (fun w => L ", " ++ w) ws ++ chRBR :: tail).
    assert (Tt : vtail t) by (subst t; destruct ws; cbn; tauto).
    destruct (array_value [] None w v t) as (m1 & it & S1 & H1); [discriminate|exact R|exact Tt|].
    destruct (array_rest ws vs tail F [EVal it]) as (m2 & its & S2 & elems' & Ev & H2).
    destruct (array_item (v :: vs) (it :: its) elems') as (r & U & Q); [constructor; assumption|exact Ev|].
    exists (S (S (m1 + m2))), (IArray (group_values elems') default_trivia false), (PList r). split; [|split; [exact I|split; [exact U|constructor; exact Q]]].
    intros pre mk. destruct (reads_v_start w v R) as (c & rr & Ew & V).
    destruct (H1 (pre ++ [chLBR]) (List.length pre)) as [mk1 H1']. destruct (H2 ((pre ++ [chLBR]) ++ w) mk1) as [mk2 H2']. exists mk2.
    rewrite join_cons. replace (([chLBR] ++ (w ++ flat_map (fun x => L ", " ++ x) ws) ++ [chRBR]) ++ tail) with (chLBR :: w ++ t) by (subst t; cbn [app]; rewrite <- !app_assoc; reflexivity).
    assert (X : w ++ t = c :: rr ++ t) by (rewrite Ew; reflexivity). rewrite X, value_lbr, <- X. rewrite H1' by lia. apply (array_up m2 (m1 + m2)) in H2'; [|lia]. subst t. cbn [app] in H2' |- *. rewrite H2'.
    f_equal. f_equal. rewrite <- !app_assoc. reflexivity.
Qed.

(** * Keys and their values *)
Definition read_key (k : str) : skey := mkSKey k (k_t (skey_of_str k)) (L "= ") (key1 k ++ [chSP]) false.
Lemma key1_start k : exists c r, key1 k = c :: r /\ (is_bare_key_char c = true \/ c = chDQ).
Proof.
  unfold key1, skey_of_str. destruct (bare_ok k) eqn:E; cbn [k_orig kt_value].
  - apply bare_ok_spec in E as [H F]. destruct k as [|c k]; [congruence|]. inversion F; subst. cbn [app]. eauto.
  - cbn [app]. eauto.
Qed.
Definition kstart (c : char) : Prop := is_bare_key_char c = true \/ c = chDQ.
Lemma kstart_facts c : kstart c -> is_spaces c = false /\ is_blank c = false /\ is_ws c = false /\ c <> chHASH /\ c <> chRCB /\ c <> chCOMMA /\ c <> chLF /\ c <> chLBR /\ c <> chNUL.
Proof.
  unfold kstart, is_bare_key_char, is_ascii_letter, is_ascii_digit, is_spaces, is_blank, is_ws, is_nl, is_spaces, chHASH, chRCB, chCOMMA, chLF, chLBR, chNUL, chSP, chTAB, chCR, chUND, chMINUS, chDQ.
  intros [H | ->]; lia.
Qed.
Lemma sep_run pre c r mk : is_kv_sep c = false -> parse_sep (mkSt pre (L "= " ++ c :: r) mk) = (Ok (L "= "), mkSt (pre ++ L "= ") (c :: r) (List.length pre)).
Proof.
  intros H. unfold parse_sep, bind at 1, mark, set_mark. cbn [p_pre p_rest]. change (L "= " ++ c :: r) with (chEQ :: chSP :: c :: r). unfold bind at 1, current at 1, cur. cbn [p_rest].
  change (chEQ =? chEQ)%N with true. unfold bind at 1. cbn [p_rest p_pre p_mark]. cbn [sep_loop]. change (is_kv_sep chEQ) with true. change (is_kv_sep chSP) with true. cbv iota. change (chSP =? chEQ)%N with false. cbv iota.
  assert (E : (c =? chEQ)%N = false) by (unfold is_kv_sep in H; destruct (c =? chEQ)%N; [discriminate|reflexivity]). rewrite E, H.
  unfold bind at 1, current, cur. cbn [p_rest negb]. unfold extractM, extract. cbn [p_mark p_pre]. rewrite <- app_assoc. cbn [app]. rewrite skipn_length_app. reflexivity.
Qed.
Lemma key_run k n pre rest mk : List.length (key1 k) < n ->
  exists sk mk', parse_key n (mkSt pre (key1 k ++ L " = " ++ rest) mk) = (Ok (KSingle sk), mkSt (pre ++ key1 k ++ [chSP]) (L "= " ++ rest) mk')
    /\ set_sep (L "= ") sk = read_key k.
Proof.
  intros H. destruct n as [|n]; [lia|]. destruct (parse_key_one k n pre [chSP] (L "= " ++ rest) mk) as (sk & mk' & E & A & B & C & D).
  { constructor; [reflexivity|constructor]. } { cbn. split; [reflexivity|]. split; [reflexivity|discriminate]. } { fold (key1 k). lia. }
  exists sk, mk'. fold (key1 k) in *. change (key1 k ++ L " = " ++ rest) with (key1 k ++ [chSP] ++ L "= " ++ rest). rewrite E. unfold key_tail, bind, current, cur. cbn [p_rest].
  change (L "= " ++ rest) with (chEQ :: chSP :: rest). change (chEQ =? chDOT)%N with false. cbv iota. split; [reflexivity|].
  unfold set_sep, read_key. rewrite A, B, C, D. reflexivity.
Qed.
Lemma kv_run pc k w v tail : reads_v w v -> vtail tail ->
  exists m it, shows_as v it /\
    forall pre mk, exists mk', forall n, m <= n -> key_value_with false (parse_value false n) n pc (mkSt pre (key1 k ++ L " = " ++ w ++ tail) mk)
      = (let t := item_trivia it in
         t' <- (if pc then
           ct <- parse_comment_trail true ;;
           let '(cws, comment, trail) := ct in
           ret (mkTrivia [] (if nonempty (tr_cws t) then tr_cws t else cws) comment trail)
         else ret (mkTrivia [] (tr_cws t) (tr_comment t) [])) ;;
         ret (KSingle (read_key k), set_trivia t' it)) (mkSt (pre ++ key1 k ++ L " = " ++ w) tail mk').
Proof.
  intros R T. destruct (R tail T) as (m & it & v' & F & P & U & Q). exists (m + S (List.length (key1 k))), it. split; [split; eauto|]. intros pre mk.
  destruct (key1_start k) as (c & r & E & K). destruct (kstart_facts c K) as (K1 & _). destruct (reads_v_start w v R) as (d & s & Ew & V). destruct (vstart_facts d V) as (_ & _ & V1 & _).
  destruct (key_run k (S (List.length (key1 k))) pre (w ++ tail) (List.length pre)) as (sk & mk1 & Ek & Es); [lia|].
  destruct (F ((pre ++ key1 k ++ [chSP]) ++ L "= ") (List.length (pre ++ key1 k ++ [chSP]))) as (mk2 & Ev). exists mk2. intros n Hn.
  apply (mle_up _ (parse_key n)) in Ek; [|apply mle_parse_key; lia]. apply (value_up m n) in Ev; [|lia].
  unfold key_value_with. unfold bind at 1, mark, set_mark. cbn [p_pre p_rest]. unfold bind at 1, adv_whileM.
  replace (adv_while is_spaces (mkSt pre (key1 k ++ L " = " ++ w ++ tail) (List.length pre))) with (mkSt pre (key1 k ++ L " = " ++ w ++ tail) (List.length pre))
    by (rewrite E; cbn [app]; rewrite adv_none by exact K1; reflexivity).
  unfold bind at 1, extractM, extract. cbn [p_mark p_pre]. rewrite skipn_all. unfold bind at 1. rewrite Ek.
  unfold bind at 1. rewrite Ew in *. cbn [app] in Ev |- *. rewrite sep_run by exact V1. unfold bind at 1. rewrite Ev. cbv zeta. cbn [key_set_sep]. rewrite Es.
  replace (((pre ++ key1 k ++ [chSP]) ++ L "= ") ++ d :: s) with (pre ++ key1 k ++ L " = " ++ d :: s) by (rewrite <- !app_assoc; reflexivity).
  destruct pc; [|reflexivity]. unfold bind. destruct (parse_comment_trail true _) as [[[[? ?] ?]|e] st']; reflexivity.
Qed.

(** * Inline tables *)
Lemma set_shows v t it : shows_as v it -> shows_as v (set_trivia t it).
Proof. intros (P & v' & U & Q). split; [destruct it; auto|]. exists v'. rewrite sunwrap_trivia. auto. Qed.
Definition opened (c : container) (sp : str) : container := match sp with [] => c | _ => add_ws c sp end.
Definition after_entry (n : nat) (c : container) : M item :=
  c0 <- current ;; if (c0 =? chCOMMA)%N then inc_exn KUnexpectedEof ;;; inline_loop false n c (Some true) else inline_loop false n c (Some false).
Lemma opened_shows c sp r : shows c r -> shows (opened c sp) r.
Proof. destruct sp; [auto|]. apply shows_ws. Qed.
Lemma inline_at n c tc pre sp d r mk : (sp = [] \/ sp = [chSP]) -> is_spaces d = false -> d <> chRCB -> d <> chCOMMA -> tc <> Some false ->
  inline_loop false (S n) c tc (mkSt pre (sp ++ d :: r) mk) =
  (kv <- key_value_with false (parse_value false n) n false ;;
   elems <- add_elem false (opened c sp) (Some (fst kv)) (snd kv) ;;
   a <- idxM ;;
   adv_whileM is_spaces ;;;
   raw <- since a ;;
   elems <- (if nonempty raw then add_elem false elems None (IWs raw false) else ret elems) ;;
   after_entry n elems) (mkSt (pre ++ sp) (d :: r) mk).
Proof.
  intros Hsp D1 D2 D3 Htc. apply N.eqb_neq in D2, D3. cbn [inline_loop]. unfold bind at 1, idxM, idx. cbn [p_pre]. unfold bind at 1, adv_whileM.
  replace (adv_while is_spaces (mkSt pre (sp ++ d :: r) mk)) with (mkSt (pre ++ sp) (d :: r) mk).
  2: { destruct Hsp as [-> | ->]; unfold adv_while; cbn [p_pre p_rest p_mark app]; cbn [take_while drop_while app].
       - rewrite D1. reflexivity.
       - change (is_spaces chSP) with true. cbv iota. rewrite D1. reflexivity. }
  unfold bind at 1. rewrite idx_since.
  assert (Eo : ((if nonempty sp then add_elem false c None (IWs sp false) else ret c) : M container) (mkSt (pre ++ sp) (d :: r) mk) = (Ok (opened c sp), mkSt (pre ++ sp) (d :: r) mk)).
  { destruct Hsp as [-> | ->]; [reflexivity|]. unfold add_elem, cappend. destruct (app_fuel_pos c None (IWs [chSP] false)) as [q ->]. cbn [nonempty]. rewrite append_ws. reflexivity. }
  unfold bind at 1. rewrite Eo. unfold bind at 1, current at 1, cur. cbn [p_rest]. rewrite D2, andb_false_r.
  destruct tc as [[|]|]; [|congruence|]; cbv iota beta; rewrite ?D2, ?D3; cbn [orb]; reflexivity.
Qed.
Lemma inline_entry c r k w v tc sp rest : shows c r -> ~ In k (map fst r) -> reads_v w v -> (sp = [] \/ sp = [chSP]) -> (exists d r', rest = d :: r' /\ (d = chCOMMA \/ d = chRCB)) -> tc <> Some false ->
  exists m v' c', pyeq v v' /\ shows c' (r ++ [(k, v')]) /\
    forall pre mk, exists mk', forall n, m <= n -> inline_loop false (S n) c tc (mkSt pre (sp ++ key1 k ++ L " = " ++ w ++ rest) mk)
      = after_entry n c' (mkSt (pre ++ sp ++ key1 k ++ L " = " ++ w) rest mk').
Proof.
  intros Hs Hk R Hsp (d & r' & Er & Hd) Htc.
  pose proof (opened_shows c sp r Hs) as Hs1. set (c1 := opened c sp) in *.
  destruct (kv_run false k w v rest R) as (m & it & (P & v' & U & Q) & H). { rewrite Er. cbn. destruct Hd as [-> | ->]; tauto. }
  set (it2 := set_trivia (mkTrivia [] (tr_cws (item_trivia it)) (tr_comment (item_trivia it)) []) it).
  destruct (cappend_add c1 r (read_key k) it2 v' Hs1 Hk) as [Ea Hs2]. { subst it2. rewrite sunwrap_trivia. exact U. }
  exists m, v', (add_new c1 (read_key k) it2). split; [exact Q|]. split; [exact Hs2|]. intros pre mk. destruct (H (pre ++ sp) mk) as [mk' H']. exists mk'. intros n Hn. specialize (H' n Hn).
  destruct (key1_start k) as (kc & kr & E & K). destruct (kstart_facts kc K) as (K1 & _ & _ & _ & K2 & K3 & _).
  set (body := key1 k ++ L " = " ++ w ++ rest) in *. assert (Eb : body = kc :: kr ++ L " = " ++ w ++ rest) by (subst body; rewrite E; reflexivity).
  rewrite Eb, inline_at, <- Eb by assumption. fold c1. unfold bind at 1. rewrite H'. cbv zeta beta iota. unfold bind at 1 2, ret at 1 2. cbn [fst snd]. fold it2. unfold add_elem, lift. rewrite Ea.
  unfold bind at 1, idxM, idx. cbn [p_pre]. unfold bind at 1, adv_whileM. rewrite Er. rewrite adv_none by (destruct Hd as [-> | ->]; reflexivity).
  unfold bind at 1, since. cbn [p_pre]. rewrite skipn_all. cbn [nonempty]. unfold bind at 1, ret at 1.
  rewrite <- !app_assoc. reflexivity.
Qed.
Definition kveq (a b : str * pyv) : Prop := fst a = fst b /\ pyeq (snd a) (snd b).
Definition etext (kv : str * pyv) : str := key1 (fst kv) ++ L " = " ++ vtext false (snd kv).
Definition reads_e (kv : str * pyv) : Prop := reads_v (vtext false (snd kv)) (snd kv).
Lemma kveq_keys a b : Forall2 kveq a b -> map fst a = map fst b.
Proof. induction 1 as [|x y a b [H _] F IH]; [reflexivity|]. cbn [map]. congruence. Qed.
Lemma inline_close {sf} n c tc tail pre mk : tc <> Some true ->
  inline_loop sf (S n) c tc (mkSt pre (chRCB :: tail) mk) = (Ok (IInline c default_trivia false), mkSt (pre ++ [chRCB]) tail mk).
Proof.
  intros H. cbn [inline_loop]. unfold bind at 1, idxM, idx. cbn [p_pre]. unfold bind at 1, adv_whileM. rewrite adv_none by reflexivity.
  unfold bind at 1, since. cbn [p_pre]. rewrite skipn_all. cbn [nonempty]. unfold bind at 1, ret at 1. unfold bind at 1, current at 1, cur. cbn [p_rest].
  change (chRCB =? chRCB)%N with true. rewrite andb_true_r. destruct tc as [[|]|]; [congruence| |]; reflexivity.
Qed.
Lemma after_close n c tail pre mk : after_entry (S n) c (mkSt pre (chRCB :: tail) mk) = (Ok (IInline c default_trivia false), mkSt (pre ++ [chRCB]) tail mk).
Proof.
  unfold after_entry, bind, current, cur. cbn [p_rest]. change (chRCB =? chCOMMA)%N with false. cbv iota. apply inline_close. discriminate.
Qed.
Lemma after_comma n c d r pre mk : after_entry n c (mkSt pre (chCOMMA :: d :: r) mk) = inline_loop false n c (Some true) (mkSt (pre ++ [chCOMMA]) (d :: r) mk).
Proof. reflexivity. Qed.
Lemma after_up n n' c st a st' : n <= n' -> after_entry n c st = (Ok a, st') -> after_entry n' c st = (Ok a, st').
Proof.
  intros H. unfold after_entry, bind, current. destruct (cur st =? chCOMMA)%N.
  - destruct (inc_exn KUnexpectedEof st) as [[[]|e] st1]; [|congruence]. apply inline_up, H.
  - apply inline_up, H.
Qed.
Lemma inline_rest sp es tail : (sp = [] \/ sp = [chSP]) -> Forall reads_e es -> forall c r, shows c r -> NoDup (map fst r ++ map fst es) ->
  exists m r' c', Forall2 kveq es r' /\ shows c' (r ++ r') /\
    forall pre mk, exists mk', after_entry m c (mkSt pre (flat_map (fun e => (chCOMMA :: sp) ++ etext e) es ++ chRCB :: tail) mk)
      = (Ok (IInline c' default_trivia false), mkSt (pre ++ flat_map (fun e => (chCOMMA :: sp) ++ etext e) es ++ [chRCB]) tail mk').
Proof.
  intros Hsp F. induction F as [|[k v] es R F IH]; intros c r Hs Nd.
  - exists 1, [], c. split; [constructor|]. rewrite app_nil_r. split; [exact Hs|]. intros pre mk. exists mk. cbn [flat_map app]. apply after_close.
  - set (t := flat_map (fun e => (chCOMMA :: sp) ++ etext e) es ++ chRCB :: tail).
    cbn [map fst] in Nd. assert (Hk : ~ In k (map fst r)). { intros X. apply NoDup_remove_2 in Nd. apply Nd, in_or_app. left; exact X. }
    destruct (inline_entry c r k (vtext false v) v (Some true) sp t Hs Hk R Hsp) as (m1 & v' & c1 & Q & Hs1 & H1).
    { subst t. destruct es; cbn [flat_map app]; eauto. } { discriminate. }
    destruct (IH c1 (r ++ [(k, v')]) Hs1) as (m2 & r2 & c2 & F2 & Hs2 & H2). { rewrite map_app, <- app_assoc. exact Nd. }
    exists (S (m1 + m2)), ((k, v') :: r2), c2. split; [constructor; [split; [reflexivity|exact Q]|exact F2]|]. rewrite <- app_assoc in Hs2. split; [exact Hs2|].
    intros pre mk. destruct (H1 (pre ++ [chCOMMA]) mk) as [mk1 H1']. destruct (H2 ((pre ++ [chCOMMA]) ++ sp ++ key1 k ++ L " = " ++ vtext false v) mk1) as [mk2 H2']. exists mk2.
    specialize (H1' (m1 + m2) ltac:(lia)).
    set (b := sp ++ key1 k ++ L " = " ++ vtext false v ++ t) in *.
    replace (flat_map (fun e => (chCOMMA :: sp) ++ etext e) ((k, v) :: es) ++ chRCB :: tail) with (chCOMMA :: b)
      by (subst b t; cbn [flat_map etext fst snd app]; unfold etext; cbn [fst snd]; rewrite <- !app_assoc; reflexivity).
    assert (Eb : exists d r0, b = d :: r0). { subst b. destruct (key1_start k) as (d & r0 & E & _). rewrite E. destruct sp as [|x sp']; cbn [app]; eauto. }
    destruct Eb as (d & r0 & Eb). rewrite Eb, after_comma, <- Eb. rewrite H1'. eapply (after_up m2 (m1 + m2)) in H2'; [|lia]. fold t in H2'. rewrite H2'.
    f_equal. f_equal. cbn [flat_map]. unfold etext at 2. cbn [fst snd]. rewrite <- !app_assoc. cbn [app]. rewrite <- ?app_assoc . reflexivity.
Qed.
Lemma value_lcb s n pre c r mk : parse_value s (S n) (mkSt pre (chLCB :: c :: r) mk) = inline_loop s n (empty_cont true) None (mkSt (pre ++ [chLCB]) (c :: r) (List.length pre)).
Proof. reflexivity. Qed.
Lemma sunwrap_inline c t b r : sunwrap_cont c = Some r -> sunwrap (IInline c t b) = Some (PDict r).
Proof. intros H. cbn [sunwrap]. rewrite H. reflexivity. Qed.
Lemma inline_reads sp es : (sp = [] \/ sp = [chSP]) -> NoDup (map fst es) -> Forall reads_e es -> forall kvs, Permutation kvs es ->
  reads_v ([chLCB] ++ join (chCOMMA :: sp) (map etext es) ++ [chRCB]) (PDict kvs).
Proof.
  intros Hsp Nd F kvs Pm tail T. destruct es as [|[k v] es].
  - exists 2, (IInline (empty_cont true) default_trivia false), (PDict []). split; [|split; [exact I|split; [reflexivity|]]].
    + intros pre mk. exists (List.length pre). cbn [map join app]. rewrite value_lcb, inline_close by discriminate. rewrite <- app_assoc. reflexivity.
    + eapply pe_dict; [exact Pm|constructor].
  - apply Forall_cons_iff in F as [R F]. set (t := flat_map (fun e => (chCOMMA :: sp) ++ etext e) es ++ chRCB :: tail).
    destruct (inline_entry (empty_cont true) [] k (vtext false v) v None [] t shows_empty (fun x => x) R (or_introl eq_refl)) as (m1 & v' & c1 & Q & Hs1 & H1).
    { subst t. destruct es; cbn [flat_map app]; eauto. } { discriminate. }
    destruct (inline_rest sp es tail Hsp F c1 [(k, v')] Hs1 Nd) as (m2 & r2 & c2 & F2 & Hs2 & H2).
    exists (S (S (m1 + m2))), (IInline c2 default_trivia false), (PDict ([(k, v')] ++ r2)). split; [|split; [exact I|split; [apply sunwrap_inline, shows_unwrap, Hs2|]]].
    + intros pre mk. destruct (H1 (pre ++ [chLCB]) (List.length pre)) as [mk1 H1']. destruct (H2 ((pre ++ [chLCB]) ++ [] ++ key1 k ++ L " = " ++ vtext false v) mk1) as [mk2 H2']. exists mk2.
      specialize (H1' (m1 + m2) ltac:(lia)). cbn [map]. rewrite join_cons, flat_map_concat_map, map_map, <- flat_map_concat_map.
      set (b := [] ++ key1 k ++ L " = " ++ vtext false v ++ t) in *.
      replace (([chLCB] ++ (etext (k, v) ++ flat_map (fun x => (chCOMMA :: sp) ++ etext x) es) ++ [chRCB]) ++ tail) with (chLCB :: b)
        by (subst b t; change (etext (k, v)) with (key1 k ++ L " = " ++ vtext false v); rewrite <- !app_assoc; reflexivity).
      assert (Eb : exists d r0, b = d :: r0). { subst b. destruct (key1_start k) as (d & r0 & E & _). rewrite E. cbn [app]; eauto. }
      destruct Eb as (d & r0 & Eb). rewrite Eb, value_lcb, <- Eb. rewrite H1'. eapply (after_up m2 (m1 + m2)) in H2'; [|lia]. fold t in H2'. rewrite H2'.
      f_equal. f_equal. unfold etext at 2. cbn [fst snd]. rewrite <- !app_assoc. cbn [app]. rewrite <- ?app_assoc . reflexivity.
    + eapply pe_dict; [exact Pm|]. constructor; [split; [reflexivity|exact Q]|exact F2].
Qed.
Lemma dicts_last_map {A B} (f : A -> bool) (g : A -> B) l : dicts_last (map (fun x => (f x, g x)) l) = map g (filter (fun x => negb (f x)) l ++ filter f l).
Proof.
  unfold dicts_last. rewrite map_app. f_equal; (induction l as [|x l IH]; [reflexivity|]); cbn [map filter fst]; destruct (f x); cbn [negb map snd]; rewrite ?IH; reflexivity.
Qed.
Lemma values_read v : py_fine v -> forall nw, reads_v (vtext nw v) v.
Proof.
  induction v as [ | | | | | | |l IH|l IH] using pyv_rect2; intros H nw;
    try (apply scalar_reads; inversion H; subst; assumption).
  - inversion H as [? B|? Fl|]; subst; [destruct B|]. cbn [vtext]. apply array_reads. clear H. induction IH as [|v l Hv _ IH']; [constructor|].
    apply Forall_cons_iff in Fl as [? ?]. cbn [map]. constructor; auto.
  - inversion H as [? B| |? Nd Fl]; subst; [destruct B|]. clear H.
    assert (Re : Forall reads_e l). { rewrite Forall_forall in IH, Fl |- *. intros kv Hx. apply IH; auto. }
    cbn [vtext]. set (es := map (fun kv : str * pyv => let (k, x) := kv in (is_dict x, key1 k ++ L " = " ++ vtext false x)) l).
    assert (Ees : es = map (fun kv => (is_dict (snd kv), etext kv)) l) by (apply map_ext; intros [k x]; reflexivity). rewrite Ees. clear es Ees.
    destruct nw.
    + rewrite dicts_last_map. pose proof (filter_split (fun kv : str * pyv => is_dict (snd kv)) l) as Pm. apply (inline_reads [chSP]); [right; reflexivity| | |exact Pm].
      * eapply perm_nodup; [exact Pm|exact Nd].
      * eapply Permutation_Forall; [exact Pm|exact Re].
    + rewrite map_map. cbn [snd]. apply (inline_reads []); [left; reflexivity|exact Nd|exact Re|apply Permutation_refl].
Qed.
