(** Linecol: positions reported by parse errors (C04). *)
From Verif Require Import Base Source Utils Items Container Arrays Parser Lemmas.
From Coq Require Import ZifyBool ZifyNat ZifyN.
Open Scope nat_scope.

(** Specification: line number and column of the position just after [p], for a
    given notion of line break. *)
Definition breaks (brk : char -> bool) (p : str) : nat := List.length (filter brk p).
Definition since_break (brk : char -> bool) (p : str) : nat := List.length (take_while (fun c => negb (brk c)) (rev p)).
Definition position (brk : char -> bool) (p : str) : nat * nat := (1 + breaks brk p, since_break brk p).

Lemma take_while_len_all p s : Forall (fun c => p c = true) s -> take_while p s = s.
Proof. induction s as [|c s IH]; intros H; [reflexivity|]. inversion H; subst. cbn [take_while]. rewrite H2, IH; auto. Qed.
Lemma take_while_stop p a c b : p c = false -> take_while p (a ++ c :: b) = take_while p a.
Proof. intros H. induction a as [|x a IH]; cbn [app take_while]; [rewrite H; reflexivity|]. destruct (p x); [f_equal; exact IH|reflexivity]. Qed.
Lemma position_clean brk p : Forall (fun c => brk c = false) p -> position brk p = (1, List.length p).
Proof.
  intros H. unfold position, breaks, since_break.
  assert (E : filter brk p = []).
  { induction p as [|c p IH]; [reflexivity|]. inversion H; subst. cbn [filter]. rewrite H2. auto. }
  rewrite E, take_while_len_all, rev_length; [reflexivity|]. apply Forall_rev. eapply Forall_impl; [|exact H].
  cbv beta. intros c ->. reflexivity.
Qed.
Lemma position_break brk p c q : brk c = true ->
  position brk (p ++ c :: q) = (breaks brk (p ++ [c]) + fst (position brk q), snd (position brk q)).
Proof.
  intros H. unfold position, breaks, since_break. cbn [fst snd].
  rewrite rev_app_distr. cbn [rev]. rewrite <- app_assoc. cbn [app].
  rewrite take_while_stop by (rewrite H; reflexivity). f_equal.
  change (c :: q) with ([c] ++ q). rewrite app_assoc, filter_app, app_length. lia.
Qed.

Definition no_crlf (s : str) : Prop := forall a b, s <> a ++ chCR :: chLF :: b.
(** The offset is inside the text, or at its end on an unfinished line. *)
Definition inside (i : nat) (s : str) : Prop := i < List.length s \/ (i = List.length s /\ exists t x, s = t ++ [x] /\ is_linebreak x = false).

Lemma linecol_aux s : forall acc k c0 ix total,
  Forall (fun c => is_linebreak c = false) acc -> no_crlf s -> c0 <= ix -> inside (ix - c0) (rev acc ++ s) ->
  linecol_loop (splitlines_aux acc s) k c0 ix total
  = (k + fst (position is_linebreak (firstn (ix - c0) (rev acc ++ s))), snd (position is_linebreak (firstn (ix - c0) (rev acc ++ s)))).
Proof.
  assert (C : forall acc r k c0 ix, Forall (fun c => is_linebreak c = false) acc -> c0 <= ix -> ix < c0 + List.length acc + 1 ->
    (k + 1, ix - c0) = (k + fst (position is_linebreak (firstn (ix - c0) (rev acc ++ r))), snd (position is_linebreak (firstn (ix - c0) (rev acc ++ r))))).
  { intros acc r k c0 ix Ha Hle Hlt. rewrite firstn_app, rev_length.
    replace (ix - c0 - List.length acc) with 0 by lia. cbn [firstn]. rewrite app_nil_r.
    rewrite position_clean; [|rewrite Forall_forall in *; intros c Hc; apply Ha, in_rev;
      rewrite <- (firstn_skipn (ix - c0) (rev acc)); apply in_or_app; left; exact Hc].
    cbn [fst snd]. rewrite firstn_length, rev_length. f_equal. lia. }
  induction s as [|c s IH]; intros acc k c0 ix total Ha Hn Hle Hin.
  - cbn [splitlines_aux]. destruct acc as [|a acc].
    + exfalso. cbn [rev app] in Hin. destruct Hin as [H|[_ (t & x & H & _)]]; [simpl in H; lia|]. destruct t; discriminate.
    + set (A := a :: acc) in *. cbn [linecol_loop]. rewrite rev_length.
      assert (Hlt : ix < c0 + List.length A + 1).
      { rewrite app_nil_r in Hin. unfold inside in Hin. rewrite rev_length in Hin. lia. }
      rewrite (proj2 (Nat.ltb_lt _ _) Hlt). apply C; auto.
  - assert (Hn' : no_crlf s) by (intros a b E; apply (Hn (c :: a) b); rewrite E; reflexivity).
    cbn [splitlines_aux]. destruct (is_linebreak c) eqn:Eb.
    + assert (Es : match s with
                   | [] => [rev acc]
                   | d :: s'' => if ((c =? chCR)%N && (d =? chLF)%N)%bool then rev acc :: splitlines_aux [] s'' else rev acc :: splitlines_aux [] s
                   end = rev acc :: splitlines_aux [] s).
      { destruct s as [|d s]; [reflexivity|]. destruct (N.eqb_spec c chCR) as [->|]; [|reflexivity].
        destruct (N.eqb_spec d chLF) as [->|]; [|reflexivity]. exfalso. apply (Hn [] s). reflexivity. }
      rewrite Es. clear Es. cbn [linecol_loop]. rewrite rev_length.
      destruct (Nat.ltb_spec ix (c0 + List.length acc + 1)) as [Hlt|Hge]; [apply C; auto|].
      rewrite IH; [|constructor|exact Hn'|lia|].
      * cbn [rev app].
        replace (firstn (ix - c0) (rev acc ++ c :: s)) with (rev acc ++ c :: firstn (ix - (c0 + List.length acc + 1)) s).
        2:{ rewrite firstn_app, rev_length. rewrite (firstn_all2 (rev acc)) by (rewrite rev_length; lia).
            replace (ix - c0 - List.length acc) with (S (ix - (c0 + List.length acc + 1))) by lia. reflexivity. }
        rewrite position_break by exact Eb. cbn [fst snd]. unfold breaks at 1. rewrite filter_app. cbn [filter]. rewrite Eb.
        assert (E0 : filter is_linebreak (rev acc) = []).
        { apply Forall_rev in Ha. clear - Ha. induction (rev acc) as [|x l IH]; [reflexivity|]. inversion Ha; subst. cbn [filter]. rewrite H1. auto. }
        rewrite E0. cbn [app List.length]. f_equal. lia.
      * cbn [rev app]. unfold inside in *. rewrite app_length, rev_length in Hin. cbn [List.length] in Hin.
        destruct Hin as [H|[H (t & x & E & Hx)]]; [left; lia|right]. split; [lia|].
        destruct s as [|d s] using rev_ind; [exfalso|].
        { apply (f_equal (fun l => last l 0%N)) in E. rewrite !last_last in E. subst. congruence. }
        exists s, d. split; [reflexivity|].
        replace (rev acc ++ c :: s ++ [d]) with ((rev acc ++ c :: s) ++ [d]) in E by (rewrite <- app_assoc; reflexivity).
        apply app_inj_tail in E as [_ ->]. exact Hx.
    + rewrite IH; [|constructor; assumption|exact Hn'|exact Hle|].
      * cbn [rev]. rewrite <- app_assoc. reflexivity.
      * cbn [rev]. rewrite <- app_assoc. exact Hin.
Qed.
Lemma linecol_ok s i : no_crlf s -> inside i s -> to_linecol s i = position is_linebreak (firstn i s).
Proof.
  intros Hn Hi. unfold to_linecol, splitlines. rewrite (linecol_aux s [] 0 0 i); [|constructor|exact Hn|lia|].
  - cbn [rev app]. rewrite Nat.sub_0_r. destruct (position _ _). reflexivity.
  - cbn [rev app]. rewrite Nat.sub_0_r. exact Hi.
Qed.
(** Texts whose only line breaks are LF. *)
Definition only_lf (s : str) : Prop := Forall (fun c => is_linebreak c = true -> c = chLF) s.
Definition is_lf (c : char) : bool := (c =? chLF)%N.
Lemma position_ext b1 b2 p : Forall (fun c => b1 c = b2 c) p -> position b1 p = position b2 p.
Proof.
  intros H. unfold position, breaks, since_break. f_equal.
  - f_equal. f_equal. induction H as [|c p Hc Hp IH]; [reflexivity|]. cbn [filter]. rewrite Hc, IH. reflexivity.
  - apply Forall_rev in H. f_equal. induction H as [|c l Hc Hl IH]; [reflexivity|]. cbn [take_while]. rewrite Hc, IH. reflexivity.
Qed.
Lemma linecol_lf s i : only_lf s -> inside i s -> to_linecol s i = position is_lf (firstn i s).
Proof.
  intros H Hi. rewrite linecol_ok; [|intros a b E|exact Hi].
  - apply position_ext. unfold only_lf in H. rewrite Forall_forall in *. intros c Hc. unfold is_lf.
    assert (Hs : In c s) by (rewrite <- (firstn_skipn i s); apply in_or_app; left; exact Hc).
    specialize (H c Hs). destruct (is_linebreak c) eqn:E.
    + rewrite H by reflexivity. reflexivity.
    + symmetry. apply N.eqb_neq. intros ->. discriminate.
  - unfold only_lf in H. rewrite Forall_forall in H. specialize (H chCR). rewrite E in H.
    assert (F : chCR = chLF) by (apply H; [apply in_or_app; right; left; reflexivity|reflexivity]). discriminate.
Qed.
Lemma splitlines_lf t : forall acc, only_lf t -> List.length (splitlines_aux acc (t ++ [chLF])) = breaks is_lf (t ++ [chLF])
  /\ forall k c0 ix total, c0 + List.length acc + List.length t + 1 <= ix ->
     linecol_loop (splitlines_aux acc (t ++ [chLF])) k c0 ix total = (total, 0).
Proof.
  induction t as [|c t IH]; intros acc H.
  - cbn [app splitlines_aux]. change (is_linebreak chLF) with true. split; [reflexivity|]. intros k c0 ix total Hl. cbn [List.length] in Hl. cbn [linecol_loop].
    rewrite rev_length. destruct (Nat.ltb_spec ix (c0 + List.length acc + 1)); [lia|reflexivity].
  - inversion H as [|? ? Hc Ht]; subst. cbn [app splitlines_aux]. destruct (is_linebreak c) eqn:E.
    + rewrite (Hc eq_refl) in *. destruct (IH [] Ht) as [IH1 IH2].
      replace (match t ++ [chLF] with [] => [rev acc] | d :: s'' => if (chLF =? chCR)%N && (d =? chLF)%N then rev acc :: splitlines_aux [] s''
               else rev acc :: splitlines_aux [] (t ++ [chLF]) end) with (rev acc :: splitlines_aux [] (t ++ [chLF]))
        by (destruct (t ++ [chLF]); reflexivity).
      split.
      * cbn [List.length]. rewrite IH1. reflexivity.
      * intros k c0 ix total Hl. cbn [List.length] in *. cbn [linecol_loop]. rewrite rev_length.
        destruct (Nat.ltb_spec ix (c0 + List.length acc + 1)); [lia|]. apply IH2. cbn [List.length]. lia.
    + destruct (IH (c :: acc) Ht) as [IH1 IH2]. split.
      * rewrite IH1. unfold breaks. cbn [filter]. replace (is_lf c) with false; [reflexivity|].
        unfold is_lf. symmetry. apply N.eqb_neq. intros ->. discriminate.
      * intros k c0 ix total Hl. apply IH2. cbn [List.length] in *. lia.
Qed.
Lemma linecol_end t st k : only_lf t -> src st = t ++ [chLF] -> idx st = List.length t + 1 ->
  fst (raise (A := unit) k st) = Err (ParseErr k (breaks is_lf (src st)) 0)
  /\ position is_lf (src st) = (1 + breaks is_lf (src st), 0).
Proof.
  intros Ho Hs Hi. destruct (splitlines_lf t [] Ho) as [H1 H2]. split.
  - unfold raise, parse_error, to_linecol, splitlines. rewrite Hs, Hi, H2 by (cbn; lia). rewrite H1. reflexivity.
  - rewrite Hs. unfold position, since_break. rewrite rev_app_distr. reflexivity.
Qed.
