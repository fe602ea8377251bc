(** Files: line endings of TOMLFile (C25). *)
From Verif Require Import Base Source Utils Items Container Arrays Parser Api Lemmas.
From Coq Require Import ZifyBool ZifyNat ZifyN.
Open Scope nat_scope.

(** Every LF is preceded by a CR / no LF is preceded by a CR. *)
Definition all_crlf (s : str) : Prop := forall a b, s = a ++ [chLF] ++ b -> exists a', a = a' ++ [chCR].
Definition all_lf (s : str) : Prop := forall a b, s <> a ++ [chCR; chLF] ++ b.
Definition has_lf (s : str) : Prop := In chLF s.

Fixpoint acb (prev : bool) (s : str) : bool :=
  match s with
  | [] => true
  | c :: s' => if (c =? chLF)%N then prev && acb false s' else acb (c =? chCR)%N s'
  end.
Lemma acb_spec s : forall p : str, acb (match rev p with c :: _ => (c =? chCR)%N | [] => false end) s = true <->
  (forall a b, s = a ++ [chLF] ++ b -> exists a', p ++ a = a' ++ [chCR]).
Proof.
  induction s as [|c s IH]; intros p; cbn [acb].
  - split; [|reflexivity]. intros _ a b E. destruct a; discriminate.
  - assert (Hrev : forall x, match rev (p ++ [x]) with c0 :: _ => (c0 =? chCR)%N | [] => false end = (x =? chCR)%N)
      by (intros x; rewrite rev_app_distr; reflexivity).
    specialize (IH (p ++ [c])). rewrite Hrev in IH.
    assert (Hstep : (forall a b, s = a ++ [chLF] ++ b -> exists a', (p ++ [c]) ++ a = a' ++ [chCR]) <->
                    (forall a b, c :: s = (c :: a) ++ [chLF] ++ b -> exists a', p ++ (c :: a) = a' ++ [chCR])).
    { split; intros H a b E.
      - inversion E as [E']. destruct (H a b E') as [a' Ha]. exists a'. rewrite <- Ha, <- app_assoc. reflexivity.
      - destruct (H a b) as [a' Ha]; [cbn; rewrite E; reflexivity|]. exists a'. rewrite <- app_assoc. exact Ha. }
    rewrite Hstep in IH. clear Hstep Hrev.
    destruct (N.eqb_spec c chLF) as [->|Hc].
    + change (chLF =? chCR)%N with false in IH. rewrite andb_true_iff, IH. split.
      * intros [H1 H2] a b E. destruct a as [|x a].
        -- rewrite app_nil_r. destruct (rev p) as [|y q] eqn:Er; [discriminate|]. apply N.eqb_eq in H1. subst y.
           exists (rev q). rewrite <- (rev_involutive p), Er. reflexivity.
        -- inversion E; subst. apply (H2 a b). reflexivity.
      * intros H. split.
        -- destruct (H [] s eq_refl) as [a' Ha]. rewrite app_nil_r in Ha. rewrite Ha, rev_app_distr. reflexivity.
        -- intros a b E. apply (H (chLF :: a) b). exact E.
    + rewrite IH. split.
      * intros H a b E. destruct a as [|x a]; [inversion E; congruence|]. inversion E; subst. apply (H a b). reflexivity.
      * intros H a b E. apply (H (c :: a) b). exact E.
Qed.
Lemma acb_iff s : acb false s = true <-> all_crlf s.
Proof. apply (acb_spec s []). Qed.

Lemma all_lf_iff s : all_lf s <-> substr crlf s = false.
Proof.
  unfold all_lf. split.
  - intros H. destruct (substr crlf s) eqn:E; [|reflexivity]. apply substr_spec in E as (a & b & E). exfalso. eapply H; eauto.
  - intros H a b E. assert (substr crlf s = true) by (apply substr_spec; eauto). congruence.
Qed.

Lemma count_lf_cons c s : count [chLF] (c :: s) = (if (c =? chLF)%N then 1 else 0) + count [chLF] s.
Proof.
  unfold count. cbn [count_aux]. cbn [startswith List.length Nat.sub]. rewrite andb_true_r, N.eqb_sym.
  destruct (c =? chLF)%N; reflexivity.
Qed.
Lemma count_crlf_hit s : count crlf (chCR :: chLF :: s) = S (count crlf s).
Proof. reflexivity. Qed.
Lemma count_crlf_miss c s : startswith crlf (c :: s) = false -> count crlf (c :: s) = count crlf s.
Proof. intros H. unfold count. cbn [count_aux]. rewrite H. reflexivity. Qed.
Lemma crlf_hit_inv c s : startswith crlf (c :: s) = true -> exists r, c = chCR /\ s = chLF :: r.
Proof. intros H. apply startswith_spec in H as [r E]. inversion E; subst. eauto. Qed.

Lemma counts n : forall s, List.length s <= n ->
  count crlf s <= count [chLF] s /\ (count crlf s = count [chLF] s <-> acb false s = true).
Proof.
  induction n as [|n IH]; intros s Hs.
  - destruct s; [|cbn in Hs; lia]. split; [reflexivity|]. split; reflexivity.
  - destruct s as [|c s]; [split; [reflexivity|split; reflexivity]|]. cbn [List.length] in Hs.
    destruct (startswith crlf (c :: s)) eqn:E.
    + apply crlf_hit_inv in E as (r & -> & ->). cbn [List.length] in Hs. destruct (IH r) as [H1 H2]; [lia|].
      rewrite count_crlf_hit, !count_lf_cons. change (chCR =? chLF)%N with false. rewrite N.eqb_refl. split; [lia|].
      cbn [acb]. change (chCR =? chLF)%N with false. rewrite !N.eqb_refl. cbn [andb]. rewrite <- H2. lia.
    + rewrite count_crlf_miss, count_lf_cons by exact E. destruct (IH s) as [H1 H2]; [lia|]. cbn [acb].
      destruct (N.eqb_spec c chLF) as [->|Hc].
      * split; [lia|]. split; [lia|discriminate].
      * split; [lia|]. cbn [Nat.add]. rewrite H2.
        destruct (N.eqb_spec c chCR) as [->|Hc2]; [|reflexivity].
        destruct s as [|d s]; [reflexivity|]. cbn [acb]. destruct (N.eqb_spec d chLF) as [->|]; [discriminate E|reflexivity].
Qed.
Lemma count_crlf_zero n : forall s, List.length s <= n -> (count crlf s = 0 <-> substr crlf s = false).
Proof.
  induction n as [|n IH]; intros s Hs.
  - destruct s; [|cbn in Hs; lia]. split; reflexivity.
  - destruct s as [|c s]; [split; reflexivity|]. cbn [List.length] in Hs.
    destruct (startswith crlf (c :: s)) eqn:E.
    + assert (substr crlf (c :: s) = true) by (cbn [substr]; rewrite E; reflexivity). rewrite H.
      apply crlf_hit_inv in E as (r & -> & ->). rewrite count_crlf_hit. split; [lia|discriminate].
    + rewrite count_crlf_miss by exact E. cbn [substr]. rewrite E. cbn [orb]. apply IH. lia.
Qed.
Lemma count_lf_pos s : 0 < count [chLF] s <-> has_lf s.
Proof.
  unfold has_lf. induction s as [|c s IH]; [split; [intros H; inversion H|intros []]|].
  rewrite count_lf_cons. cbn [In]. destruct (N.eqb_spec c chLF) as [->|Hc]; [split; [auto|lia]|].
  cbn [Nat.add]. rewrite IH. split; [auto|]. intros [H|H]; [congruence|exact H].
Qed.

(** ** write *)
Lemma sub_lf_acb s : forall p, acb (match p with Some c => (c =? chCR)%N | None => false end) (sub_lf p s) = true.
Proof.
  induction s as [|c s IH]; intros p; cbn [sub_lf]; [reflexivity|].
  destruct (N.eqb_spec c chLF) as [->|Hc]; cbn [andb].
  - specialize (IH (Some chLF)). change (chLF =? chCR)%N with false in IH.
    assert (A : acb false (sub_lf (Some chLF) s) = true) by exact IH.
    destruct (match p with Some p0 => (p0 =? chCR)%N | None => false end) eqn:Ep; cbn [negb app acb].
    + rewrite N.eqb_refl. exact A.
    + unfold crlf. cbn [app acb]. change (chCR =? chLF)%N with false. rewrite !N.eqb_refl. exact A.
  - cbn [app acb]. apply N.eqb_neq in Hc. rewrite Hc. apply (IH (Some c)).
Qed.
Lemma sub_lf_id s : forall p, acb (match p with Some c => (c =? chCR)%N | None => false end) s = true -> sub_lf p s = s.
Proof.
  induction s as [|c s IH]; intros p; cbn [sub_lf acb]; [reflexivity|].
  destruct (N.eqb_spec c chLF) as [->|Hc]; cbn [andb].
  - intros H. apply andb_true_iff in H as [H1 H2]. rewrite H1. cbn [negb app]. f_equal. apply IH. exact H2.
  - intros H. cbn [app]. f_equal. apply IH. exact H.
Qed.

Lemma rep_hit s : replace crlf [chLF] (chCR :: chLF :: s) = chLF :: replace crlf [chLF] s.
Proof. reflexivity. Qed.
Lemma rep_miss c s : startswith crlf (c :: s) = false -> replace crlf [chLF] (c :: s) = c :: replace crlf [chLF] s.
Proof. intros H. unfold replace. cbn [replace_aux]. rewrite H. reflexivity. Qed.
Lemma rep_id s : substr crlf s = false -> replace crlf [chLF] s = s.
Proof.
  induction s as [|c s IH]; [reflexivity|]. cbn [substr]. intros H. apply orb_false_iff in H as [H1 H2].
  rewrite rep_miss by exact H1. f_equal. auto.
Qed.
Lemma rep_head s : startswith [chLF] (replace crlf [chLF] s) = startswith [chLF] s || startswith crlf s.
Proof.
  destruct s as [|c s]; [reflexivity|]. destruct (startswith crlf (c :: s)) eqn:E.
  - apply crlf_hit_inv in E as (r & -> & ->). reflexivity.
  - rewrite rep_miss by exact E. cbn [startswith]. rewrite orb_false_r. reflexivity.
Qed.
Definition crcrlf : str := [chCR; chCR; chLF].
Lemma rep_clean n : forall s, List.length s <= n -> substr crlf (replace crlf [chLF] s) = substr crcrlf s.
Proof.
  induction n as [|n IH]; intros s Hs.
  - destruct s; [reflexivity|cbn in Hs; lia].
  - destruct s as [|c s]; [reflexivity|]. cbn [List.length] in Hs.
    destruct (startswith crlf (c :: s)) eqn:E.
    + apply crlf_hit_inv in E as (r & -> & ->). rewrite rep_hit. cbn [List.length] in Hs.
      cbn [substr]. rewrite <- (IH r) by lia. reflexivity.
    + rewrite rep_miss by exact E. cbn [substr]. rewrite <- (IH s) by lia. f_equal.
      unfold crlf at 1. cbn [startswith]. change (startswith crcrlf (c :: s)) with ((chCR =? c)%N && startswith crlf s).
      destruct (N.eqb_spec chCR c) as [<-|]; [|reflexivity]. cbn [andb].
      change (startswith [chLF] (replace crlf [chLF] s) = startswith crlf s).
      rewrite rep_head. assert (Hn : startswith [chLF] s = false) by exact E. rewrite Hn. reflexivity.
Qed.

Lemma ls_crlf old s : has_lf s -> all_crlf s -> file_linesep old s = LsCRLF.
Proof.
  intros H1 H2. unfold file_linesep. apply count_lf_pos in H1. apply Nat.ltb_lt in H1. rewrite H1.
  apply acb_iff in H2. apply (counts (List.length s) s (le_n _)) in H2. rewrite H2, Nat.eqb_refl. reflexivity.
Qed.
Lemma ls_lf old s : has_lf s -> all_lf s -> file_linesep old s = LsLF.
Proof.
  intros H1 H2. unfold file_linesep. apply count_lf_pos in H1. pose proof H1 as H0. apply Nat.ltb_lt in H1. rewrite H1.
  apply all_lf_iff in H2. apply (count_crlf_zero (List.length s) s (le_n _)) in H2. rewrite H2.
  destruct (Nat.eqb_spec 0 (count [chLF] s)); [lia|]. reflexivity.
Qed.
Lemma ls_mixed old s : ~ all_crlf s -> ~ all_lf s -> file_linesep old s = LsMixed.
Proof.
  intros H1 H2. unfold file_linesep.
  rewrite <- acb_iff, <- (proj2 (counts (List.length s) s (le_n _))) in H1.
  rewrite all_lf_iff, <- (count_crlf_zero (List.length s) s (le_n _)) in H2.
  pose proof (proj1 (counts (List.length s) s (le_n _))).
  destruct (Nat.ltb_spec 0 (count [chLF] s)); [|lia].
  destruct (Nat.eqb_spec (count crlf s) (count [chLF] s)); [contradiction|].
  destruct (Nat.eqb_spec (count crlf s) 0); [contradiction|reflexivity].
Qed.
Lemma ls_none old s : ~ has_lf s -> file_linesep old s = old.
Proof.
  intros H. unfold file_linesep. rewrite <- count_lf_pos in H. destruct (Nat.ltb_spec 0 (count [chLF] s)); [contradiction|reflexivity].
Qed.
Lemma write_crlf t : all_crlf (file_write LsCRLF t) /\ (all_crlf t -> file_write LsCRLF t = t).
Proof.
  cbn [file_write]. split; [apply acb_iff; apply (sub_lf_acb t None)|]. intros H. apply (sub_lf_id t None). apply acb_iff. exact H.
Qed.
Lemma write_lf t : (all_lf (file_write LsLF t) <-> ~ exists a b, t = a ++ [chCR; chCR; chLF] ++ b)
  /\ (all_lf t -> file_write LsLF t = t).
Proof.
  cbn [file_write]. split.
  - rewrite all_lf_iff, (rep_clean (List.length t)) by lia. split.
    + intros H F. apply (substr_spec crcrlf t) in F. congruence.
    + intros H. destruct (substr crcrlf t) eqn:E; [|reflexivity]. apply (substr_spec crcrlf t) in E. contradiction.
  - intros H. apply rep_id. apply all_lf_iff. exact H.
Qed.
