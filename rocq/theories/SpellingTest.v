(** SpellingTest: a test for [even_headers] (bare names without blanks). *)
From Verif Require Import Base PyVal Grammar Denote Document Spelling Lemmas Ordinary CompStr CompKey.
From Coq Require Import ZifyBool ZifyNat ZifyN.
Open Scope nat_scope.

Definition bdot (c : char) : bool := is_bare_key_char c || (c =? 46)%N.
Definition odd (r : str) : bool := match drop_while bdot r with c :: _ => (c =? 32) || (c =? 9) || (c =? 34) || (c =? 39) | [] => false end%N.
Definition dots (h : str) : nat := List.length (filter (fun c => (c =? 46)%N) h).
Definition startsb (a : str) : bool := match rev a with [] => true | c :: _ => (c =? 10)%N end.
Definition after_bracket (r : str) : str := if headc r 91%N then tl r else r.
Definition evenb (s : str) : bool :=
  all_splits s (fun a r => if startsb a then all_splits r (fun w r =>
    if forallb is_spaces w && headc r 91%N then let r := after_bracket (tl r) in negb (odd r) && (negb (inb 32%N w) || Nat.leb (dots (take_while bdot r)) 1) else true) else true).

Lemma drop_bdot p r : Forall (fun c => bdot c = true) p -> drop_while bdot (p ++ r) = drop_while bdot r.
Proof. induction 1 as [|c p Hc _ IH]; [reflexivity|]. cbn [app drop_while]. rewrite Hc. exact IH. Qed.
Lemma bare_bdot w : Forall bare_c w -> Forall (fun c => bdot c = true) w.
Proof. apply Forall_impl. intros c H. unfold bdot. rewrite (bare_is c H). reflexivity. Qed.
Lemma blank_odd a r : blanks a -> odd (a ++ r) = false -> a = [].
Proof. intros [|c a' [->| ->] _]; [reflexivity|discriminate..]. Qed.
Lemma name_plain w n r : name_means w n -> odd (w ++ r) = false -> w = n /\ Forall (fun c => bdot c = true) w.
Proof.
  intros [a v z Ha Ne Hv Hz|a basic v z m Ha Hs Hz] H; rewrite <- !app_assoc in H; pose proof (blank_odd _ _ Ha H) as ->; cbn [app] in *.
  - assert (z = []) as ->. { apply (blank_odd z r Hz). unfold odd in *. rewrite drop_bdot in H by (apply bare_bdot, Hv). exact H. }
    rewrite app_nil_r. split; [reflexivity|apply bare_bdot, Hv].
  - exfalso. destruct (quote_head _ _ _ Hs) as [v' ->]. destruct basic; discriminate.
Qed.
Lemma names_plain ws Q r : Forall2 name_means ws Q -> odd (join [46%N] ws ++ r) = false -> ws = Q /\ Forall (fun c => bdot c = true) (join [46%N] ws).
Proof.
  induction 1 as [|w n ws Q Hn Hw IH]; intros H; [split; [reflexivity|constructor]|]. destruct ws as [|w2 ws].
  - inversion Hw; subst. cbn [join] in *. destruct (name_plain w n r Hn H) as [-> B]. auto.
  - change (join [46%N] (w :: w2 :: ws)) with (w ++ [46%N] ++ join [46%N] (w2 :: ws)) in *. rewrite <- !app_assoc in H. destruct (name_plain w n _ Hn H) as [-> B].
    unfold odd in H. rewrite drop_bdot in H by exact B. change (drop_while bdot ([46%N] ++ join [46%N] (w2 :: ws) ++ r)) with (drop_while bdot (join [46%N] (w2 :: ws) ++ r)) in H. destruct (IH H) as [-> B2]. split; [reflexivity|].
    apply Forall_app. split; [exact B|]. constructor; [reflexivity|exact B2].
Qed.
Lemma join_dots ws : List.length ws <= S (dots (join [46%N] ws)).
Proof.
  induction ws as [|w ws IH]; [cbn; lia|]. destruct ws as [|w2 ws]; [cbn [List.length]; lia|]. change (join [46%N] (w :: w2 :: ws)) with (w ++ [46%N] ++ join [46%N] (w2 :: ws)).
  unfold dots in *. rewrite !filter_app, !app_length. cbn [filter List.length] in *. change (46 =? 46)%N with true. cbn [List.length] in *. lia.
Qed.
Lemma evenb_ok s : evenb s = true -> even_headers (fun n => n) s.
Proof.
  intros H bl ws Q (a & array & t & z & E & Ha & Hb & Hn & _). rewrite map_id.
  unfold evenb in H. pose proof (all_splits_ok _ _ H a _ E) as X. cbv beta in X. replace (startsb a) with true in X by (destruct Ha as [->|[b ->]]; [reflexivity|unfold startsb; rewrite rev_app_distr; reflexivity]).
  assert (E2 : exists r, (bl ++ (if array then [91; 91] ++ join [46] ws ++ [93; 93] else [91] ++ join [46] ws ++ [93])%N ++ t) ++ z = bl ++ (91%N :: (if array then [91%N] else []) ++ join [46%N] ws ++ 93%N :: r)).
  { destruct array; [exists (93%N :: t ++ z)|exists (t ++ z)]; cbn [app]; rewrite <- ?app_assoc; cbn [app]; rewrite <- ?app_assoc; cbn [app]; reflexivity. }
  destruct E2 as [r E2]. pose proof (all_splits_ok _ _ X bl _ E2) as Y. cbv beta in Y.
  replace (forallb is_spaces bl) with true in Y. 2: { symmetry. apply forallb_forall. intros x Hx. unfold Grammar.blanks in Hb. apply (proj1 (Forall_forall _ _) Hb) in Hx. destruct Hx as [->| ->]; reflexivity. }
  cbn [headc tl andb] in Y. change (91 =? 91)%N with true in Y. cbv iota zeta in Y.
  assert (Fb : Forall2 name_means ws Q -> after_bracket ((if array then [91%N] else []) ++ join [46%N] ws ++ 93%N :: r) = join [46%N] ws ++ 93%N :: r).
  { intros Hw. destruct array; [reflexivity|]. unfold after_bracket. cbn [app]. replace (headc (join [46%N] ws ++ 93%N :: r) 91%N) with false; [reflexivity|]. symmetry.
    destruct Hw as [|w n ws Q Hw _]; [reflexivity|]. assert (W : exists c w', w = c :: w' /\ c <> 91%N).
    { destruct Hw as [x v y Hx Nv Hv _|x basic v y m Hx Hs _]; (destruct x as [|x0 x]; [|inversion Hx as [|? ? Hx0 _]; subst; eexists x0, _; split; [reflexivity|]; destruct Hx0 as [->| ->]; discriminate]).
      - destruct v as [|v0 v]; [congruence|]. inversion Hv as [|? ? Hv0 _]; subst. eexists v0, _. split; [reflexivity|]. unfold bare_c, digit_c in Hv0. lia.
      - destruct (quote_head _ _ _ Hs) as [v' ->]. eexists _, _. split; [reflexivity|]. destruct basic; discriminate. }
    destruct W as (c & w' & -> & Hc). assert (J : exists q, join [46%N] ((c :: w') :: ws) = c :: q) by (destruct ws; cbn [join app]; eauto). destruct J as [q ->]. cbn [app headc]. apply N.eqb_neq, Hc. }
  rewrite (Fb Hn) in Y. apply andb_true_iff in Y as [Y1 Y2]. apply negb_true_iff in Y1. destruct (names_plain ws Q _ Hn Y1) as [-> B]. split; [reflexivity|].
  intros L Hin. destruct (take_while_app bdot (join [46%N] Q) (93%N :: r) B) as [T _]; [reflexivity|]. rewrite T in Y2. apply inb_In in Hin. rewrite Hin in Y2. cbn [negb orb] in Y2. apply Nat.leb_le in Y2. pose proof (join_dots Q). lia.
Qed.
Definition calmb (s : str) : bool :=
  all_splits s (fun _ r => match r with m :: d1 :: d2 :: sp :: _ => negb ((m =? chMINUS)%N && is_ascii_digit d1 && is_ascii_digit d2 && (sp =? chSP)%N) | _ => true end
      && match r with c :: d :: _ => negb (is_spaces c && (d =? chCOMMA)%N) | _ => true end).
Lemma calmb_ok s : calmb s = true -> no_date_space s /\ no_blank_comma s.
Proof.
  unfold calmb. intros H. split.
  - intros a d1 d2 b E [D1 D2]. pose proof (all_splits_ok _ _ H a _ E) as X. cbv beta in X. apply andb_true_iff in X as [X _]. cbn [app] in X. rewrite D1, D2 in X. discriminate X.
  - intros a c b E. pose proof (all_splits_ok _ _ H a _ E) as X. cbv beta in X. apply andb_true_iff in X as [_ X]. cbn [app] in X. destruct (is_spaces c); [discriminate X|reflexivity].
Qed.
