(** EditSwap: a table in the place of a value and a value in the place of a table; every
    operation (C43). *)
From Verif Require Import Base Source Utils Items Container Arrays Parser Api Lemmas Wf Errors Render Consist OMap ContOps ContText PyVal PyItem ItemConv DumpValue Numbers Dates DumpText DumpCont DumpRender Grammar Denote Snug CompValue Written Document Edit Changes Possible ListSpec PropAot Neat EditNeat MadeSnug MadeNeat EditOps InsideFacts EditMore.
From Coq Require Import ZifyBool ZifyNat ZifyN.
Open Scope nat_scope.

(** * The old entry goes *)
Lemma list_set_id {A} i (e : A) l : nth_error l i = Some e -> list_set i e l = l.
Proof. revert i. induction l as [|x l IH]; intros [|i] N; try discriminate; cbn in *; [congruence|]. rewrite IH by exact N. reflexivity. Qed.
Lemma set_id c i e : nth_error (c_body c) i = Some e -> set_body (list_set i e (c_body c)) c = c.
Proof. intros N. rewrite list_set_id by exact N. destruct c. reflexivity. Qed.
Lemma swap_removed tops path pfx c b1 b2 d i sk old : ok_cont c -> c_body c = b1 ++ b2 -> nbody tops path pfx b1 b2 d -> map_get (k_key sk) (c_map c) = Some (One i) -> nth_error (c_body c) i = Some (Some sk, old) ->
  exists c1 d1, remove (ContOps.put c i (Some sk, old) (map_set (k_key sk) (One i) (map_del (k_key sk) (c_map c)))) (k_key sk) = Ok c1 /\ ok_cont c1 /\ c_body c1 = map (erase (k_key sk)) b1 ++ map (erase (k_key sk)) b2 /\
    nbody tops path pfx (map (erase (k_key sk)) b1) (map (erase (k_key sk)) b2) d1 /\ changed (EDel (k_key sk)) d d1 /\ map_get (k_key sk) (c_map c1) = None.
Proof.
  intros O B H M N. destruct (ok_parts c O) as (C & Pr & F). pose proof (put_ok c i sk old old C M N) as (C0 & _ & P0 & _ & _ & M0). cbv zeta in *. remember (ContOps.put _ _ _ _) as c0 eqn:Ec.
  assert (B0 : c_body c0 = c_body c) by (rewrite Ec, put_body; apply list_set_id, N). assert (O0 : ok_cont c0) by (constructor; [exact C0|congruence|rewrite B0; exact F]).
  destruct (del_neat tops path pfx c0 b1 b2 d (k_key sk) O0) as (c1 & d1 & E & O1 & B1 & H1 & Ch); [congruence|exact H|rewrite M0; congruence|].
  exists c1, d1. repeat (split; [assumption|]). rewrite <- M0 in M. destruct (remove_ok c0 _ _ C0 M) as (c1' & E' & _ & _ & _ & _ & _ & Mg). rewrite E in E'. injection E' as <-. rewrite Mg, str_eqb_refl. reflexivity.
Qed.
Lemma put_eq c i e mp : ContOps.put c i e mp = let 'Cont body _ p tks d := c in Cont (list_set i e body) mp p tks d.
Proof. destruct c. reflexivity. Qed.
Definition firsttab (body : list entry) (i : nat) : option nat := find (fun i => match nth_error body i with Some (_, x) => is_table_or_aot x | None => false end) (seq i (List.length body - i)).
Lemma swap_unfold n strict c i sk old v : map_get (k_key sk) (c_map c) = Some (One i) -> nth_error (c_body c) i = Some (Some sk, old) -> xorb (is_table_or_aot v) (is_table_or_aot old) = true ->
  replace_at (S n) strict c (Some (One i)) (NKStr (k_key sk)) v =
  (let* c1 := remove (ContOps.put c i (Some sk, old) (map_set (k_key sk) (One i) (map_del (k_key sk) (c_map c)))) (k_key sk) in
   let* res1 := match firsttab (c_body c1) i with
                | Some j => let* c2 := insert_at c1 j (skey_of_str (k_key sk)) v in Ok (c2, Some j)
                | None => let* c2 := append n Own strict c1 (Some (KSingle (skey_of_str (k_key sk)))) v true in Ok (c2, None)
                end in
   let '(c3, opos) := res1 in
   if negb (is_table_or_aot v) then Ok c3 else
   let body3 := c_body c3 in
   let lastix := match last_nonnull body3 0 None with Some (i, _) => i | None => 0%nat end in
   let pos := match opos with Some i => i | None => lastix end in
   match nth_error body3 pos with
   | Some (bk, v3) =>
       let v4 := inval_item v3 in
       match v4 with
       | ITable tc tmm =>
           let has_ws := ends_with_whitespace v4 in
           let replace_has_ws := match old with ITable oc0 _ => match last (map snd (c_body oc0)) INull with IWs _ _ => true | _ => false end | _ => false end in
           let next_ws := Nat.ltb pos lastix && match nth_error body3 (S pos) with Some (_, x) => is_wsitem x | None => false end in
           let v5 := if (Nat.ltb pos lastix || replace_has_ws) && negb (next_ws || has_ws) then table_push_ws tc tmm else v4 in
           let 'Cont b q1 q2 q3 q4 := c3 in Ok (Cont (list_set pos (bk, v5) b) q1 q2 q3 (dict_set (k_key sk) q4))
       | _ => Ok (set_body (list_set pos (bk, v4) body3) c3)
       end
   | None => Ok c3
   end).
Proof.
  intros M N X. destruct c as [body m p tks d]. cbn [c_body c_map ContOps.put] in *. cbn [replace_at]. rewrite N, X. cbn [orb]. rewrite (list_set_id _ _ _ N), skey_of_str_key. cbv zeta. unfold firsttab.
  destruct (remove _ _) as [c1|e]; cbn [rbind]; reflexivity.
Qed.
Lemma firsttab_some body i j : firsttab body i = Some j -> i <= j /\ (exists e, nth_error body j = Some e /\ is_table_or_aot (snd e) = true) /\ forall q e, i <= q -> q < j -> nth_error body q = Some e -> is_table_or_aot (snd e) = false.
Proof.
  unfold firsttab. intros H. remember (List.length body - i) as n eqn:En. clear En. revert i H. induction n as [|n IH]; intros i H; cbn [seq find] in H; [discriminate|]. destruct (nth_error body i) as [[bk x]|] eqn:N.
  - destruct (is_table_or_aot x) eqn:T.
    + injection H as <-. split; [lia|]. split; [exists (bk, x); auto|]. intros; lia.
    + destruct (IH _ H) as (A & B & C). split; [lia|]. split; [exact B|]. intros q e L1 L2 Nq. destruct (Nat.eq_dec q i) as [->|Q]; [rewrite N in Nq; injection Nq as <-; exact T|]. apply (C q e); auto; lia.
  - destruct (IH _ H) as (A & B & C). split; [lia|]. split; [exact B|]. intros q e L1 L2 Nq. destruct (Nat.eq_dec q i) as [->|Q]; [congruence|]. apply (C q e); auto; lia.
Qed.
Lemma keyed_of tops path pfx b1 b2 d k : nbody tops path pfx b1 b2 d -> In k (map fst d) -> keyed_in (b1 ++ b2).
Proof. intros H I. apply (nbody_keys _ _ _ _ _ _ H) in I as (e & Ie & s & E & _). exists e. split; [exact Ie|congruence]. Qed.
Lemma erase_length k es : List.length (map (erase k) es) = List.length es.
Proof. apply map_length. Qed.
Lemma absent_dict c k : consistent c -> map_get k (c_map c) = None -> ~ In k (c_dict c).
Proof. intros C M I. apply (consistent_dict c k C) in I. contradiction. Qed.
Lemma changed_twice k v d d1 d2 : changed (EDel k) d d1 -> changed (ESet k v) d1 d2 -> ~ In k (map fst d1) -> changed (ESet k v) d d2.
Proof.
  intros H1 H2 Nk. inversion H1; subst. inversion H2 as [? ? v' a' b' N' Q E1 E2 E3|? ? v' x' a' b' a2 b2' N' Q E1 E2 E3 E4| | | | | | | | | ]; subst.
  - apply ch_old; auto.
  - exfalso. apply Nk. rewrite <- E3, map_app. apply in_or_app. right. left. reflexivity.
Qed.
Lemma changed_gone k d d1 : changed (EDel k) d d1 -> ~ In k (map fst d1).
Proof. intros H. inversion H; subst. assumption. Qed.
Lemma changed_here k v d d1 : changed (ESet k v) d d1 -> In k (map fst d1).
Proof. intros H. inversion H; subst; rewrite map_app; apply in_or_app; right; left; reflexivity. Qed.
(** An edit of the table without the key is an edit of the table. *)
Lemma done_again super super0 tops path pfx b1 b2 d k v d1 c' b1' b2' d' : changed (EDel k) d d1 ->
  done super0 tops path pfx (map (erase k) b1) (map (erase k) b2) d1 (ESet k v) c' b1' b2' d' -> done super tops path pfx b1 b2 d (ESet k v) c' b1' b2' d'.
Proof.
  intros Ch [A1 A2 A3 A4 A5 A6]. split; auto.
  - eapply changed_twice; eauto. eapply changed_gone, Ch.
  - intros Fb. apply A5, bare_erase, Fb.
  - intros _ _. eapply keyed_of; [exact A3|]. eapply changed_here, A4.
Qed.

Lemma nbody_parts tops path pfx b1 b2 d : nbody tops path pfx b1 b2 d -> exists ps l, d = dict_of ps ++ l /\ nlines [] b1 ps /\ ntables tops path pfx b2 l /\ NoDup (map fst (dict_of ps ++ l)).
Proof. intros [? ? ? ? ? ps l]. eauto 8. Qed.
(** * From a value to a table *)
Lemma close_tab it b : is_table_or_aot it = true -> close_line it b = b.
Proof. intros T. unfold close_line. destruct (List.length b); [reflexivity|]. destruct (nth_error b n) as [[pk prev]|]; [|reflexivity]. unfold ends_line. rewrite T, !orb_true_r. cbn. rewrite ?orb_true_r. reflexivity. Qed.
Lemma ntables_split tops path pfx x y l : ntables tops path pfx (x ++ y) l -> exists l1 l2, l = l1 ++ l2 /\ ntables tops path pfx x l1 /\ ntables tops path pfx y l2.
Proof.
  revert l. induction x as [|e x IH]; intros l H; cbn [app] in H; [exists [], l; split; [reflexivity|]; split; [constructor|exact H]|]. inversion H as [|? ? ? ? ? ? Sk Vo H'|? ? ? sk it v ? l' Nt H']; subst; destruct (IH _ H') as (l1 & l2 & -> & A1 & A2).
  - exists l1, l2. split; [reflexivity|]. split; [apply nt_skip; assumption|exact A2].
  - exists ((k_key sk, v) :: l1), l2. split; [reflexivity|]. split; [apply nt_cons; assumption|exact A2].
Qed.
Definition undotted_below (c : container) (k : str) : Prop := forall i j sk it, map_get k (c_map c) = Some (One i) -> i < j -> nth_error (c_body c) j = Some (Some sk, it) -> k_dotted sk = false.
Lemma last_snoc b e : is_null (snd e) = false -> last_nonnull (b ++ [e]) 0 None = Some (List.length b, snd e).
Proof.
  intros H. assert (G : forall i acc, last_nonnull (b ++ [e]) i acc = Some (i + List.length b, snd e)); [|apply (G 0 None)]. induction b as [|[k w] b IH]; intros i acc; destruct e as [ke ve]; cbn [app last_nonnull snd List.length] in *.
  - rewrite H, Nat.add_0_r. reflexivity.
  - destruct (is_null w); rewrite IH; f_equal; f_equal; lia.
Qed.
Lemma over_again c i sk it : map_get (k_key sk) (c_map c) = Some (One i) -> exists n, set_item c (k_key sk) it = replace_at (S (S (S n))) false c (Some (One i)) (NKStr (k_key sk)) it.
Proof.
  intros M. unfold set_item. destruct (app_fuel_pos c (Some (KSingle (skey_of_str (k_key sk)))) it) as [n ->]. exists n.
  change (contains (S (S (S n))) c (k_key sk)) with (match map_get (k_key sk) (c_map c) with
      | None => Ok false | Some (One _) => Ok true
      | Some (Many l) => match proxy (S (S n)) c l with Ok _ => Ok true | Err (NonExistentKeyE _) => Ok false | Err e => Err e end end).
  rewrite M. reflexivity.
Qed.
Lemma tab_inval it : tabv it -> inval_item it = it.
Proof. intros [(_ & _ & H) _]. exact H. Qed.
Lemma value_table super tops path pfx c b1 b2 d i sk old v it v' : ok_cont c -> c_body c = b1 ++ b2 -> nbody tops path pfx b1 b2 d -> map_get (k_key sk) (c_map c) = Some (One i) -> nth_error (c_body c) i = Some (Some sk, old) ->
  plain old -> undotted_below c (k_key sk) -> tabv it -> ok_item it -> (forall w, variant it w -> ntable tops path pfx (skey_of_str (k_key sk)) w v') -> pyeq v v' ->
  exists c' b1' b2' d', set_item c (k_key sk) it = Ok c' /\ done super tops path pfx b1 b2 d (ESet (k_key sk) v) c' b1' b2' d'.
Proof.
  intros O B H M N Po Ud T Oi Nv Q. pose proof (tabv_table it T) as Tt. destruct (swap_removed _ _ _ _ _ _ _ _ _ _ O B H M N) as (c1 & d1 & Er & O1 & B1 & H1 & Ch & M1). destruct (ok_parts c1 O1) as (C1 & P1 & F1).
  destruct (over_again c i sk it M) as [n ->]. rewrite (swap_unfold _ _ _ _ _ _ _ M N) by (rewrite Tt, (plain_not_table _ Po); reflexivity). rewrite Er. cbn [rbind]. rewrite Tt. cbn [negb].
  set (k := k_key sk) in *. destruct (firsttab (c_body c1) i) as [j|] eqn:Ef.
  - apply firsttab_some in Ef as (Lj & (e & Ne & Te) & _). assert (Gj : List.length (map (erase k) b1) <= j).
    { rewrite erase_length. destruct (Nat.le_gt_cases (List.length b1) j) as [G|G]; [exact G|]. exfalso. rewrite B1, nth_error_app1 in Ne by (rewrite erase_length; exact G). rewrite nth_error_map in Ne. destruct (nth_error b1 j) as [f|] eqn:Nf; [|discriminate].
      cbn [option_map] in Ne. injection Ne as <-. assert (Nc : nth_error (c_body c) j = Some f) by (rewrite B, nth_error_app1 by exact G; exact Nf). unfold erase in Te. destruct f as [[s|] w]; cbn [fst snd] in Te.
      - destruct (str_eqb (k_key s) k) eqn:Es; [discriminate|]. cbn [snd] in Te. destruct (Nat.eq_dec i j) as [->|Nij]; [rewrite N in Nc; injection Nc as <- <-; unfold k in Es; rewrite str_eqb_refl in Es; discriminate|].
        pose proof (Ud i j s w M ltac:(lia) Nc) as Kd. destruct H as [? ? ? ? ? ps l Hl _ _]. apply nth_error_split in Nf as (x & y & -> & _). destruct (nlines_cut _ _ _ _ Hl) as (l1 & _ & A2).
        inversion A2 as [|? ? ? ? He|? names v0 ? ? ? ? He]; subst; inversion He as [|? ? ? P|? ? ? ? ? ? ? ? ? ? Kt]; subst; [apply plain_not_table in P; congruence|congruence].
      - destruct H as [? ? ? ? ? ps l Hl _ _]. apply nth_error_split in Nf as (x & y & -> & _). destruct (nlines_cut _ _ _ _ Hl) as (l1 & _ & A2).
        inversion A2 as [|? ? ? ? He|? names v0 ? ? ? ? He]; subst; inversion He as [? Iv| |]; subst. destruct w; try discriminate Te; destruct Iv. }
    assert (Lj2 : j < List.length (c_body c1)) by (apply nth_error_Some; congruence). destruct (insert_at_new c1 j (skey_of_str k) it C1 Lj2) as (c2 & E2 & [_ Sb _ Sd Sp _ _ _ Sc]); [rewrite skey_of_str_key; exact M1|].
    rewrite E2. cbn [rbind]. rewrite (close_tab _ _ Tt) in Sb. rewrite skey_of_str_key in Sd. assert (Lf : List.length (firstn j (c_body c1)) = j) by (rewrite firstn_length; lia).
    assert (N2 : nth_error (c_body c2) j = Some (Some (skey_of_str k), it)) by (rewrite Sb; rewrite nth_error_app2, Lf, Nat.sub_diag by lia; reflexivity). rewrite N2, (tab_inval it T).
    assert (O2 : ok_cont c2). { constructor; [exact Sc|congruence|]. rewrite Sb. rewrite <- (firstn_skipn j (c_body c1)) in F1. apply Forall_app in F1 as [G1 G2]. apply Forall_app. split; [exact G1|]. constructor; [exact Oi|exact G2]. }
    assert (Dk : In k (c_dict c2)) by (rewrite Sd; apply in_or_app; right; left; reflexivity).
    match goal with |- exists c' b1' b2' d', ?R = Ok c' /\ _ => assert (X : exists w, variant it w /\ is_table w = is_table it /\ R = Ok (set_body (list_set j (Some (skey_of_str k), w) (c_body c2)) c2)) end.
    { destruct T as [_ T]. destruct it as [ | | | | | |tc tm|L nm q t]; try (exfalso; exact T).
      - subst tm. assert (Tr : tidyh (tm_trivia (mkTM default_trivia false None None None))) by apply tidy_head, tidy_default. cbv zeta. destruct c2 as [b q1 q2 q3 q4]. cbn [c_body c_dict set_body] in *. rewrite (dict_set_old _ _ Dk).
        match goal with |- context [if ?x then table_push_ws ?a ?b else ?e] => exists (if x then table_push_ws a b else e); destruct x end; (split; [constructor; auto|]); (split; [|reflexivity]); [destruct tc; reflexivity|reflexivity].
      - destruct L as [|x L]; [destruct T|]. eexists. split; [apply (va_aot x L nm q t nm q t false)|]. split; reflexivity. }
    destruct X as (w & Vw & Tw & ->). clear M. set (u := firstn (j - List.length (map (erase k) b1)) (map (erase k) b2)). set (z := skipn (j - List.length (map (erase k) b1)) (map (erase k) b2)).
    assert (Bo : c_body (set_body (list_set j (Some (skey_of_str k), w) (c_body c2)) c2) = map (erase k) b1 ++ u ++ (Some (skey_of_str k), w) :: z).
    { replace (c_body (set_body (list_set j (Some (skey_of_str k), w) (c_body c2)) c2)) with (list_set j (Some (skey_of_str k), w) (c_body c2)) by (destruct c2; reflexivity). rewrite Sb. cbn [app]. rewrite <- Lf at 1. rewrite set_middle. rewrite B1, firstn_app, skipn_app.
      rewrite firstn_all2, skipn_all2 by exact Gj. cbn [app]. rewrite <- app_assoc. reflexivity. }
    assert (Ez : map (erase k) b2 = u ++ z) by (symmetry; apply firstn_skipn). destruct (nbody_parts _ _ _ _ _ _ H1) as (ps & l & Ed1 & Hl & Ht & Nd). subst d1. rewrite Ez in Ht. destruct (ntables_split _ _ _ _ _ _ Ht) as (l1 & l2 & El & A1 & A2).
    eexists _, (map (erase k) b1), (u ++ (Some (skey_of_str k), w) :: z), (dict_of ps ++ l1 ++ (k, v') :: l2). split; [reflexivity|]. pose proof (changed_gone _ _ _ Ch) as Nk.
    assert (Hn : nbody tops path pfx (map (erase k) b1) (u ++ (Some (skey_of_str k), w) :: z) (dict_of ps ++ l1 ++ (k, v') :: l2)).
    { constructor; [exact Hl| |].
      - apply ntables_app; [exact A1|]. rewrite <- (skey_of_str_key k) at 2. apply nt_cons; [apply Nv, Vw|exact A2].
      - rewrite El in Nd, Nk. rewrite app_assoc in Nd, Nk |- *. pose proof (nodup_insert (dict_of ps ++ l1) l2 k v' Nd Nk) as X. rewrite <- app_assoc in X. exact X. }
    split; auto.
    + eapply ok_set; [exact O2|exact N2|exact Tw|eapply variant_ok; eassumption].
    + inversion Ch; subst. rewrite app_assoc. apply ch_old; auto. rewrite <- app_assoc. congruence.
    + intros Fb. apply bare_erase, Fb.
    + intros _ _. eapply keyed_of; [exact Hn|]. rewrite app_assoc, map_app. apply in_or_app. right. left. reflexivity.
  - assert (Ap : append (S (S n)) Own false c1 (Some (KSingle (skey_of_str k))) it true = set_item c1 k it) by (rewrite append_new_any by (rewrite skey_of_str_key; exact M1); rewrite set_item_new by exact M1; rewrite skey_of_str_key; reflexivity).
    rewrite Ap. destruct (table_new None tops path pfx c1 _ _ d1 k v it v' O1 B1 H1 (absent_dict _ _ C1 M1) T Oi Nv Q) as (c2 & b2' & E2 & Dn). destruct (set_table c1 k it C1 P1 Tt M1) as (c2' & E2' & [S1 S2 S3 S4 S5]). rewrite E2 in E2'. injection E2' as <-.
    rewrite E2. cbn [rbind]. destruct (dress_any c1 k it P1 T) as [b Eb]. rewrite Eb in *. destruct (dress_quiet b k it T) as [(Qw & Qe & Qi) Qt]. set (w := dress b k it) in *.
    exists c2, (map (erase k) b1), b2', (d1 ++ [(k, v')]). split; [|exact (done_again _ _ _ _ _ _ _ _ _ _ _ _ _ _ _ Ch Dn)].
    assert (Nw : is_null (snd (ent (k, w))) = false) by (cbn [ent snd]; destruct w; try discriminate Qt; reflexivity). rewrite S4, (last_snoc _ _ Nw). rewrite nth_error_app2, Nat.sub_diag by lia. cbn [nth_error ent fst snd]. rewrite Qi, <- S4.
    assert (N2 : nth_error (c_body c2) (List.length (c_body c1)) = Some (Some (skey_of_str k), w)) by (rewrite S4, nth_error_app2, Nat.sub_diag by lia; reflexivity).
    assert (Dk : In k (c_dict c2)) by (rewrite S3; apply in_or_app; right; left; reflexivity). rewrite Nat.ltb_irrefl. replace (match old with ITable oc0 _ => match last (map snd (c_body oc0)) INull with IWs _ _ => true | _ => false end | _ => false end) with false by (destruct old; try destruct Po; reflexivity).
    cbn [orb andb]. cbv zeta. pose proof (set_id _ _ _ N2) as Si. destruct w as [ | | | | | |tc tm|]; try discriminate Qt; [|rewrite Si; reflexivity]. destruct c2 as [bb q1 q2 q3 q4]. cbn [c_body c_dict set_body] in *. rewrite (dict_set_old _ _ Dk), Si. reflexivity.
Qed.

(** * From a table to a value *)
Definition first_or_last (c : container) (k : str) : Prop := exists i, map_get k (c_map c) = Some (One i) /\
  ((forall j sk it, j < i -> nth_error (c_body c) j = Some (Some sk, it) -> is_table_or_aot it = true -> k_dotted sk = true) \/ (forall j e, i < j -> nth_error (c_body c) j = Some e -> is_table_or_aot (snd e) = false)).
Lemma close_skip it b e : void_entry e -> close_line it (b ++ [e]) = b ++ [e].
Proof. intros (_ & H & Lc). rewrite close_snoc. destruct e as [k i]. cbn [fst snd] in *. destruct i as [? f| | | | | | | ]; try destruct H; [reflexivity| |cbn; destruct (ends_line it INull); reflexivity]. unfold ends_line. cbn [item_trivia]. cbn in Lc. rewrite Lc, !orb_true_r. reflexivity. Qed.
Lemma skips_void tops path pfx u l p : Forall void_entry u -> ntables tops path pfx u l -> nlines p u p /\ l = [].
Proof.
  intros F. revert l. induction F as [|e u Hs _ IH]; intros l H; [inversion H; subst; split; [constructor|reflexivity]|]. inversion H as [|? ? ? ? ? ? Sk Vo H'|? ? ? sk it v ? l' Nt H']; subst; [|destruct Hs; discriminate].
  destruct (IH _ H') as [A ->]. split; [|reflexivity]. apply ns_void; [|exact A]. destruct e as [k i]. destruct Hs as (Hk & Hi & Lc). cbn [fst snd] in *. subst k. constructor; assumption.
Qed.
Lemma nth_split_at {A} (l : list A) n : n < List.length l -> exists x e y, l = x ++ e :: y /\ List.length x = n.
Proof. intros H. destruct (nth_error l n) as [e|] eqn:N; [|apply nth_error_None in N; lia]. apply nth_error_split in N as (x & y & -> & L). eauto. Qed.
Lemma nth_firstn {A} (l : list A) : forall m q, q < m -> nth_error (firstn m l) q = nth_error l q.
Proof. induction l as [|y l IH]; intros [|m] [|q] L; cbn; try reflexivity; try lia. apply IH. lia. Qed.
Lemma table_value super tops path pfx c b1 b2 d i sk old v it v' : ok_cont c -> c_body c = b1 ++ b2 -> nbody tops path pfx b1 b2 d -> map_get (k_key sk) (c_map c) = Some (One i) -> nth_error (c_body c) i = Some (Some sk, old) ->
  k_dotted sk = false -> is_table_or_aot old = true -> first_or_last c (k_key sk) -> plain it -> item_trivia it = default_trivia -> snug it v' -> (forall t, item_string (set_trivia t it) = item_string it) -> pyeq v v' ->
  exists c' b1' b2' d', set_item c (k_key sk) it = Ok c' /\ done super tops path pfx b1 b2 d (ESet (k_key sk) v) c' b1' b2' d'.
Proof.
  intros O B H M N Kd To Fl P Tr D St Q. pose proof (plain_not_table _ P) as Tt. destruct (swap_removed _ _ _ _ _ _ _ _ _ _ O B H M N) as (c1 & d1 & Er & O1 & B1 & H1 & Ch & M1). destruct (ok_parts c1 O1) as (C1 & P1 & F1).
  destruct (over_again c i sk it M) as [n ->]. rewrite (swap_unfold _ _ _ _ _ _ _ M N) by (rewrite Tt, To; reflexivity). rewrite Er. cbn [rbind]. rewrite Tt. cbn [negb]. set (k := k_key sk) in *.
  destruct (firsttab (c_body c1) i) as [j|] eqn:Ef.
  - apply firsttab_some in Ef as (Lj & (e & Ne & Te) & Bt). assert (Lj2 : j < List.length (c_body c1)) by (apply nth_error_Some; congruence).
    pose proof N as N'. rewrite B in N'. destruct (table_place _ _ _ _ _ _ _ _ _ H N' Kd To) as (x & y & a0 & v0 & b0 & Eb & Ei & _).
    assert (Be : c_body c1 = map (erase k) (c_body c)) by (rewrite B1, B, map_app; reflexivity).
    assert (Ns : forall q f, nth_error (c_body c) q = Some f -> List.length b1 <= q -> q < j -> void_entry (erase k f)).
    { intros q f Nq G1 G2. assert (Ib : In f b2). { rewrite B, nth_error_app2 in Nq by exact G1. eapply nth_error_In, Nq. }
      assert (Nq1 : nth_error (c_body c1) q = Some (erase k f)) by (rewrite Be, nth_error_map, Nq; reflexivity).
      assert (Hf : void_entry (erase k f) \/ is_table_or_aot (snd (erase k f)) = true /\ exists s, f = (Some s, snd f) /\ k_dotted s = false).
      { destruct H as [? ? ? ? ? ps l Hl Ht _]. apply ntables_entry in Ht. rewrite Forall_forall in Ht. destruct (Ht _ Ib) as [X|(s & Es & Ks & Ts)].
        - left. unfold erase. destruct X as [X1 X2]. rewrite X1. split; assumption.
        - unfold erase. rewrite Es. destruct (str_eqb (k_key s) k); [left; repeat split|]. right. split; [exact Ts|]. exists s. split; [|exact Ks]. destruct f. cbn [fst] in Es. subst. reflexivity. }
      destruct Hf as [Hf|(Tf & s & Es & Ks)]; [exact Hf|]. exfalso. destruct (Nat.lt_ge_cases q i) as [Lq|Gq]; [|rewrite (Bt q _ Gq G2 Nq1) in Tf; discriminate].
      destruct Fl as (i' & M' & [Fl|Fl]); rewrite M in M'; injection M' as <-.
      - rewrite Es in Nq. assert (Ts : is_table_or_aot (snd f) = true). { rewrite Es in Tf. unfold erase in Tf. cbn [fst] in Tf. destruct (str_eqb (k_key s) k); [discriminate|exact Tf]. } pose proof (Fl q s (snd f) Lq Nq Ts). congruence.
      - assert (Nj : exists f', nth_error (c_body c) j = Some f' /\ e = erase k f'). { rewrite Be, nth_error_map in Ne. destruct (nth_error (c_body c) j) as [f'|]; [|discriminate]. injection Ne as <-. eauto. }
        destruct Nj as (f' & Nj & ->). destruct (Nat.eq_dec i j) as [<-|Nij].
        + rewrite N in Nj. injection Nj as <-. unfold erase in Te. cbn [fst] in Te. unfold k in Te. rewrite str_eqb_refl in Te. discriminate.
        + pose proof (Fl j f' ltac:(lia) Nj) as X. unfold erase in Te. destruct (fst f'); [|congruence]. destruct (str_eqb _ _); [discriminate|congruence]. }
    assert (Ij : i <> j). { intros <-. rewrite Be, nth_error_map, N in Ne. cbn [option_map] in Ne. injection Ne as <-. unfold erase in Te. cbn [fst] in Te. unfold k in Te. rewrite str_eqb_refl in Te. discriminate. }
    assert (Gi : List.length b1 <= i) by (rewrite Ei, app_length; lia).
    destruct (insert_at_new c1 j (skey_of_str k) it C1 Lj2) as (c2 & E2 & [_ Sb _ Sd Sp _ _ _ Sc]); [rewrite skey_of_str_key; exact M1|]. rewrite E2. cbn [rbind]. set (m := j - List.length b1) in *.
    set (u := firstn m (map (erase k) b2)). set (z := skipn m (map (erase k) b2)). assert (Ez : map (erase k) b2 = u ++ z) by (symmetry; apply firstn_skipn).
    assert (Fu : Forall void_entry u). { apply Forall_forall. intros f If. apply In_nth_error in If as [q Nq]. assert (Lq : q < m) by (assert (q < List.length u) by (apply nth_error_Some; congruence); subst u; rewrite firstn_length in *; lia).
      unfold u in Nq. assert (Nq2 : nth_error (map (erase k) b2) q = Some f). { rewrite <- Nq. symmetry. apply nth_firstn, Lq. }
      rewrite nth_error_map in Nq2. destruct (nth_error b2 q) as [g|] eqn:Ng; [|discriminate]. injection Nq2 as <-. apply (Ns (List.length b1 + q)); [rewrite B, nth_error_app2 by lia; replace (List.length b1 + q - List.length b1) with q by lia; exact Ng|lia|subst m; lia]. }
    assert (Ef : firstn j (c_body c1) = map (erase k) b1 ++ u). { rewrite B1, firstn_app, firstn_all2 by (rewrite erase_length; lia). rewrite erase_length. reflexivity. }
    assert (Es : skipn j (c_body c1) = z). { rewrite B1, skipn_app, skipn_all2 by (rewrite erase_length; lia). rewrite erase_length. reflexivity. }
    assert (Cl : close_line it (map (erase k) b1 ++ u) = map (erase k) b1 ++ u).
    { assert (Nu : u <> []). { intros X. assert (List.length u = 0) by (rewrite X; reflexivity). subst u. rewrite firstn_length, erase_length in H0. assert (List.length (c_body c1) = List.length b1 + List.length b2) by (rewrite B1, app_length, !erase_length; reflexivity). lia. }
      destruct (exists_last Nu) as (u0 & e0 & Eu). rewrite Eu, app_assoc. apply close_skip. rewrite Eu in Fu. apply Forall_app in Fu as [_ Fu]. inversion Fu; assumption. }
    rewrite Ef, Es, Cl in Sb. destruct (nbody_parts _ _ _ _ _ _ H1) as (ps & l & Ed1 & Hl & Ht & Nd). subst d1. rewrite Ez in Ht. destruct (ntables_split _ _ _ _ _ _ Ht) as (l1 & l2 & El & A1 & A2). destruct (skips_void _ _ _ _ _ ps Fu A1) as [A3 ->]. cbn [app] in El. subst l2.
    pose proof (changed_gone _ _ _ Ch) as Nk. assert (Hd : set_trivia default_trivia it = it) by (rewrite <- Tr; destruct it; try destruct P; reflexivity). pose proof (new_line k it v' default_trivia P D St tidy_default) as Nl. rewrite Hd in Nl.
    assert (Hn : nbody tops path pfx (map (erase k) b1 ++ u ++ [(Some (skey_of_str k), it)]) z (dict_of (ps ++ [(k, Value v')]) ++ l)).
    { constructor; [|exact A2|].
      - eapply nlines_app; [exact Hl|]. eapply nlines_app; [exact A3|]. eapply ns_pair; [exact Nl|constructor|constructor]. intros X. apply Nk. rewrite map_app, dict_of_keys. apply in_or_app. left. exact X.
      - rewrite dict_of_app. apply nodup_insert; assumption. }
    eexists _, _, _, _. split; [reflexivity|]. split; [| |exact Hn| | |].
    + constructor; [exact Sc|congruence|]. rewrite Sb. rewrite B1, Ez in F1. rewrite app_assoc in F1. apply Forall_app in F1 as [G1 G2]. apply Forall_app. split; [exact G1|]. constructor; [cbn [snd]; apply oi_other, Tt|exact G2].
    + rewrite Sb. rewrite <- !app_assoc. reflexivity.
    + inversion Ch; subst. rewrite dict_of_app, <- app_assoc. cbn [dict_of map fst snd node_value app]. apply ch_old; auto; congruence.
    + intros Fb. apply Forall_app. split; [apply bare_erase, Fb|]. apply Forall_app. split; [eapply Forall_impl; [|exact Fu]; intros f Hf; left; exact Hf|]. constructor; [right; split; [discriminate|exact P]|constructor].
    + intros _ _. eapply keyed_of; [exact Hn|]. rewrite map_app, dict_of_keys, map_app. apply in_or_app. left. apply in_or_app. right. left. reflexivity.
  - assert (Ap : append (S (S n)) Own false c1 (Some (KSingle (skey_of_str k))) it true = set_item c1 k it) by (rewrite append_new_any by (rewrite skey_of_str_key; exact M1); rewrite set_item_new by exact M1; rewrite skey_of_str_key; reflexivity).
    rewrite Ap. destruct (set_done None tops path pfx c1 _ _ d1 k v it v' O1 B1 H1 (or_introl (absent_dict _ _ C1 M1)) P Tr D St Q) as (c2 & b1' & b2' & d' & E2 & [A1 A2 A3 A4 A5 A6]). rewrite E2. cbn [rbind].
    exists c2, b1', b2', d'. split; [reflexivity|]. apply (done_again super (super_of None) _ _ _ _ _ _ _ _ d1 _ _ _ _ Ch). split; auto.
Qed.

(** * Every operation *)
Definition legal_op (tops path : list str) (super : bool) (c : container) (o : eop) : Prop :=
  match o with
  | ESet k v => py_fine v /\ if tablish v
      then (is_dict v = true -> ~ In k tops) /\ avoids (sub_tops tops path k v) v /\
           (~ In k (c_dict c) \/ dict_at c k \/ (is_dict v = false /\ exists l, array_at c k l) \/ (plain_at c k /\ undotted_below c k))
      else ~ In k (c_dict c) \/ plain_at c k \/ ((dict_at c k \/ exists l, array_at c k l) /\ first_or_last c k)
  | EDel k => In k (c_dict c) /\ (super = true -> exists x, In x (c_dict c) /\ x <> k)
  | EInsert k j v => py_fine v /\ is_dict v = true /\ avoids (match path with [] => k :: tops | _ => tops end) v /\ exists l, array_at c k l
  | EDrop k j => exists l, array_at c k l /\ py_index (List.length l) j <> None /\ 1 < List.length l
  | EAdd k v => py_fine v /\ ~ In k (c_dict c) /\ (tablish v = true -> (is_dict v = true -> ~ In k tops) /\ avoids (sub_tops tops path k v) v)
  | ERemark s => comment_text s
  | ENewline => True
  | ENote k s => method_at c k /\ note_text s
  | EIndent k n => method_at c k
  | EInside k q o => exists it i, get_item c k = Some it /\ inside_at it q = Some i /\ possible_inside i o
  end.
Lemma table_set_old (m : option tmeta) c k it i c' : map_get k (c_map c) = Some (One i) -> set_item c k it = Ok c' -> match m with None => set_item c k it | Some m => table_set m c k it end = Ok c'.
Proof.
  intros M E. destruct m as [m|]; [|exact E]. unfold table_set. destruct (app_fuel_pos c (Some (KSingle (skey_of_str k))) it) as [n ->].
  change (contains (S (S (S n))) c k) with (match map_get k (c_map c) with
    | None => Ok false | Some (One _) => Ok true
    | Some (Many l) => match proxy (S (S n)) c l with Ok _ => Ok true | Err (NonExistentKeyE _) => Ok false | Err e => Err e end end).
  rewrite M, E. reflexivity.
Qed.
Lemma set_op_done m tops path pfx c b1 b2 d k v : ok_cont c -> c_body c = b1 ++ b2 -> nbody tops path pfx b1 b2 d -> pmeans path pfx -> legal_op tops path (super_of m) c (ESet k v) ->
  exists c' b1' b2' d', apply_op m c (ESet k v) = Ok c' /\ done (super_of m) tops path pfx b1 b2 d (ESet k v) c' b1' b2' d'.
Proof.
  intros O B H Hp L. destruct (ok_parts c O) as (C & Pr & F). cbn [legal_op] in L. destruct L as (Fv & L). destruct (tablish v) eqn:Tv.
    + destruct L as (Nk & Av & L). destruct (proj1 (all_neat v Fv) (match m with None => PkNone | Some _ => PkTable end)) as (i & E & T & Oi & v' & Q & Nv); [destruct m; reflexivity|exact Tv|].
      assert (X : exists c' b1' b2' d', match m with None => set_item c k i | Some m => table_set m c k i end = Ok c' /\ done (super_of m) tops path pfx b1 b2 d (ESet k v) c' b1' b2' d').
      { destruct L as [L|L].
        - destruct (table_new m tops path pfx c b1 b2 d k v i v' O B H L T Oi) as (c' & b2' & E2 & Dn); [|exact Q|exists c', b1, b2', (d ++ [(k, v')]); auto].
          intros w Vw. apply Nv; auto; rewrite ?skey_of_str_key; auto. apply skey_name.
        - assert (L2 : (dict_at c k \/ (is_dict v = false /\ exists l, array_at c k l)) \/ (plain_at c k /\ undotted_below c k)) by tauto. clear L. destruct L2 as [L|[L Ud]].
          + assert (X : exists j sk old, map_get k (c_map c) = Some (One j) /\ nth_error (c_body c) j = Some (Some sk, old) /\ k_key sk = k /\ k_dotted sk = false /\ is_table_or_aot old = true /\ (is_aot old = true -> is_table i = false)).
            { destruct L as [L|(Di & l & L)].
              - destruct (get_dict c k C L) as (j & sk & it & M & N & K & Kd & Ti). exists j, sk, it. repeat (split; [assumption|]). destruct it; try discriminate Ti. split; [reflexivity|discriminate].
              - destruct (get_array _ _ _ _ _ _ _ _ _ O B H L) as (j & sk & n & q & t & M & N & K & Kd). exists j, sk, (IAoT l n q t). repeat (split; [assumption|]). split; [reflexivity|]. intros _.
                destruct v as [ | | | | | | |vl|]; try discriminate Tv; [|discriminate Di]. clear -E. rewrite py_item_list in E. cbv zeta in E. destruct (mapr _ vl) as [its|]; cbn [rbind] in E; [|discriminate]. destruct (wants_aot _ vl); [injection E as <-; reflexivity|]. destruct (arr_extend _ _); cbn [rbind] in E; [|discriminate]. injection E as <-. reflexivity. }
            destruct X as (j & sk & old & M & N & K & Kd & To & Ha). subst k. destruct (table_over m tops path pfx c b1 b2 d j sk old v i v') as (c' & b2' & d' & E2 & Dn); try eassumption; [|exists c', b1, b2', d'; auto]. intros Nm w Vw. apply Nv; auto.
          + destruct (get_plain c k C L) as (j & sk & old & M & N & K & Po). subst k. destruct (value_table (super_of m) tops path pfx c b1 b2 d j sk old v i v') as (c' & b1' & b2' & d' & E2 & Dn); try eassumption.
            * intros w Vw. apply Nv; auto; rewrite ?skey_of_str_key; auto. apply skey_name.
            * exists c', b1', b2', d'. split; [|exact Dn]. eapply table_set_old; eassumption. }
      destruct X as (c' & b1' & b2' & d' & E2 & Dn). exists c', b1', b2', d'. split; [|exact Dn]. destruct m as [m|]; cbn [apply_op]; rewrite E; exact E2.
    + destruct (made_item (match m with None => PkNone | Some _ => PkTable end) v Fv Tv) as (it & v' & E & P & Tr & D & Q & St).
      assert (X : exists c' b1' b2' d', match m with None => set_item c k it | Some m => table_set m c k it end = Ok c' /\ done (super_of m) tops path pfx b1 b2 d (ESet k v) c' b1' b2' d').
      { assert (L2 : (~ In k (c_dict c) \/ plain_at c k) \/ ((dict_at c k \/ exists l, array_at c k l) /\ first_or_last c k)) by tauto. clear L. destruct L2 as [L|[L Fl]]; [exact (set_done m tops path pfx c b1 b2 d k v it v' O B H L P Tr D St Q)|].
        assert (X : exists j sk old, map_get k (c_map c) = Some (One j) /\ nth_error (c_body c) j = Some (Some sk, old) /\ k_key sk = k /\ k_dotted sk = false /\ is_table_or_aot old = true).
        { destruct L as [L|(l & L)].
          - destruct (get_dict c k C L) as (j & sk & it' & M & N & K & Kd & Ti). exists j, sk, it'. repeat (split; [assumption|]). destruct it'; try discriminate Ti. reflexivity.
          - destruct (get_array _ _ _ _ _ _ _ _ _ O B H L) as (j & sk & n & q & t & M & N & K & Kd). exists j, sk, (IAoT l n q t). repeat (split; [assumption|]). reflexivity. }
        destruct X as (j & sk & old & M & N & K & Kd & To). subst k. destruct (table_value (super_of m) tops path pfx c b1 b2 d j sk old v it v') as (c' & b1' & b2' & d' & E2 & Dn); try eassumption.
        exists c', b1', b2', d'. split; [|exact Dn]. eapply table_set_old; eassumption. }
      destruct X as (c' & b1' & b2' & d' & E2 & Dn). exists c', b1', b2', d'. split; [|exact Dn]. destruct m as [m|]; cbn [apply_op]; rewrite E; exact E2.
Qed.
Lemma op_done m tops path pfx c b1 b2 d o : ok_cont c -> c_body c = b1 ++ b2 -> nbody tops path pfx b1 b2 d -> pmeans path pfx -> legal_op tops path (super_of m) c o ->
  exists c' b1' b2' d', apply_op m c o = Ok c' /\ done (super_of m) tops path pfx b1 b2 d o c' b1' b2' d'.
Proof.
  intros O B H Hp L. destruct (ok_parts c O) as (C & Pr & F). destruct o as [k v|k|k j v|k j|k v|s| |k s|k n|k q o]; [exact (set_op_done m tops path pfx c b1 b2 d k v O B H Hp L)|..]; cbn [legal_op] in L.
  - destruct L as (I & Ls). apply (consistent_dict c k C) in I. destruct (del_neat tops path pfx c b1 b2 d k O B H I) as (c' & d' & E & O' & B' & H' & Ch).
    exists c', (map (erase k) b1), (map (erase k) b2), d'. split; [exact E|]. split; auto; [apply bare_erase|]. intros Sp _. destruct (Ls Sp) as (x & Ix & Nx). apply (consistent_dict c x C) in Ix. destruct (map_get x (c_map c)) as [cx|] eqn:Mx; [|contradiction]. destruct C as [Mo _]. destruct (Mo _ _ Mx) as (A1 & _ & A2). apply roomy_ne in A1. destruct (idxs cx) as [|j0 r]; [contradiction|].
    rewrite Forall_forall in A2. destruct (A2 j0 (or_introl eq_refl)) as (sk & w & N & K & _). exists (Some sk, w). split; [|discriminate]. rewrite <- map_app, <- B. apply in_map_iff. exists (Some sk, w). split; [|eapply nth_error_In, N].
    unfold erase. cbn [fst]. destruct (str_eqb (k_key sk) k) eqn:Es; [|reflexivity]. apply str_eqb_eq in Es. congruence.
  - destruct L as (Fv & Dv & Av & l & A). destruct (insert_done (super_of m) tops path pfx c b1 b2 d k j v l O B H Hp Fv Dv Av A) as (c' & b2' & d' & E & Dn). exists c', b1, b2', d'. split; [exact E|exact Dn].
  - destruct L as (l & A & Hj & Hl). destruct (drop_done (super_of m) tops path pfx c b1 b2 d k j l O B H Hp A Hj Hl) as (c' & b2' & d' & E & Dn). exists c', b1, b2', d'. split; [exact E|exact Dn].
  - destruct L as (Fv & Ab & L). destruct (set_op_done m tops path pfx c b1 b2 d k v O B H Hp) as (c' & b1' & b2' & d' & E & [A1 A2 A3 A4 A5 A6]).
    { cbn [legal_op]. split; [exact Fv|]. destruct (tablish v); [|left; exact Ab]. destruct (L eq_refl) as [L1 L2]. split; [exact L1|]. split; [exact L2|]. left. exact Ab. }
    exists c', b1', b2', d'. split; [rewrite add_set by assumption; exact E|]. split; auto. apply add_changed; [|exact A4]. rewrite (nbody_keys _ _ _ _ _ _ H). intros (e & Ie & Ke). rewrite <- B in Ie. exact (absent_key _ _ _ C (absent_map c k C Ab) Ie Ke).
  - destruct (remark_done m tops path pfx c b1 b2 d s O B H L) as (c' & b2' & E & Dn). exists c', b1, b2', d. auto.
  - destruct (newline_done m tops path pfx c b1 b2 d O B H) as (c' & b2' & E & Dn). exists c', b1, b2', d. auto.
  - destruct L as [L T]. destruct (note_done m tops path pfx c b1 b2 d k s O B H L T) as (c' & b1' & b2' & E & Dn). exists c', b1', b2', d. auto.
  - destruct (indent_done m tops path pfx c b1 b2 d k n O B H L) as (c' & b1' & b2' & E & Dn). exists c', b1', b2', d. auto.
  - destruct L as (it & i & L1 & L2 & L3). destruct (inside_done (super_of m) tops path pfx c b1 b2 d k q o it i O B H L1 L2 L3) as (c' & b1' & d' & E & Dn). exists c', b1', b2, d'. auto.
Qed.
