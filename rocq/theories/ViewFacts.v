(** ViewFacts: writing through the view on a table defined in several places (C48). *)
From Verif Require Import Base Source Utils Items Container Parser Api Lemmas Wf Render Consist OMap ContOps ContText PyVal PyItem Edit EditSwap Facts Meaning SaysDoc LookupSays PropContainers Arrays ItemConv DumpText DumpCont DumpValue DumpRender Written MadeNeat Views.
From Coq Require Import Permutation.
From Coq Require Import ZifyBool ZifyNat ZifyN.
Open Scope nat_scope.

Definition defines (es : list (option skey * item)) (x : str) : Prop := exists sk it, In (Some sk, it) es /\ k_key sk = x.
Definition mfind (x : str) (m : list (str * nat)) : option nat := option_map snd (find (fun e => str_eqb (fst e) x) m).
Lemma map_part_find x t es : forall m,
  (defines es x -> mfind x (map_part t es m) = Some t) /\ (~ defines es x -> mfind x (map_part t es m) = mfind x m).
Proof.
  unfold map_part. induction es as [|[[sk|] it] es IH] using rev_ind; intros m.
  - split; [intros (? & ? & [] & _)|reflexivity].
  - rewrite fold_left_app. cbn [fold_left fst]. unfold mfind. cbn [find fst option_map snd]. fold (mfind x m). split.
    + intros (s & i & I1 & K). destruct (str_eqb (k_key sk) x) eqn:E; [reflexivity|]. apply (IH m). exists s, i. split; [|exact K]. apply in_app_or in I1 as [I1|[I1|[]]]; [exact I1|]. injection I1 as -> ->. subst x. rewrite str_eqb_refl in E. discriminate.
    + intros N. destruct (str_eqb (k_key sk) x) eqn:E; [exfalso; apply N; exists sk, it; split; [apply in_or_app; right; left; reflexivity|apply str_eqb_eq, E]|]. apply (IH m). intros (s & i & I1 & K). apply N. exists s, i. split; [apply in_or_app; left; exact I1|exact K].
  - rewrite fold_left_app. cbn [fold_left fst]. split.
    + intros (s & i & I1 & K). apply (IH m). exists s, i. split; [|exact K]. apply in_app_or in I1 as [I1|[I1|[]]]; [exact I1|discriminate I1].
    + intros N. apply (IH m). intros (s & i & I1 & K). apply N. exists s, i. split; [apply in_or_app; left; exact I1|exact K].
Qed.
Lemma has_key_dec es x : defines es x \/ ~ defines es x.
Proof.
  induction es as [|[[sk|] it] es [(s & i & I1 & K)|N]]; [right; intros (? & ? & [] & _)|left; exists s, i; split; [right; exact I1|exact K]| |left; exists s, i; split; [right; exact I1|exact K]|].
  - destruct (str_eqb (k_key sk) x) eqn:E; [left; exists sk, it; split; [left; reflexivity|apply str_eqb_eq, E]|]. right. intros (s & i & [I1|I1] & K); [injection I1 as -> ->; subst x; rewrite str_eqb_refl in E; discriminate|]. apply N. exists s, i. split; assumption.
  - right. intros (s & i & [I1|I1] & K); [discriminate I1|]. apply N. exists s, i. split; assumption.
Qed.
Lemma map_parts_find c x tabs : forall t m,
  (exists j, In j tabs /\ defines (part_entries c j) x) ->
  exists u j, mfind x (map_parts c t tabs m) = Some (t + u) /\ nth_error tabs u = Some j /\ defines (part_entries c j) x.
Proof.
  assert (Keep : forall tabs t m, (forall j, In j tabs -> ~ defines (part_entries c j) x) -> mfind x (map_parts c t tabs m) = mfind x m).
  { clear tabs. induction tabs as [|i tabs IH]; intros t m N; [reflexivity|]. cbn [map_parts]. rewrite IH by (intros j Hj; apply N; right; exact Hj). apply (map_part_find x t (part_entries c i) m). apply N. left. reflexivity. }
  induction tabs as [|i tabs IH]; intros t m (j & Hj & K); [destruct Hj|]. cbn [map_parts].
  assert (D : (exists j, In j tabs /\ defines (part_entries c j) x) \/ forall j, In j tabs -> ~ defines (part_entries c j) x).
  { clear. induction tabs as [|i tabs [(j & Hj & K)|N]]; [right; intros j []|left; exists j; split; [right; exact Hj|exact K]|]. destruct (has_key_dec (part_entries c i) x) as [K|K]; [left; exists i; split; [left; reflexivity|exact K]|right; intros j [<-|Hj]; [exact K|apply N, Hj]]. }
  destruct D as [D|D].
  - destruct (IH (S t) (map_part t (part_entries c i) m) D) as (u & j' & E & Nn & K'). exists (S u), j'. rewrite E, Nat.add_succ_r. split; [reflexivity|]. split; [exact Nn|exact K'].
  - rewrite Keep by exact D. destruct Hj as [->|Hj]; [|exfalso; eapply D; eassumption]. exists 0, j. rewrite Nat.add_0_r. split; [apply (map_part_find x t (part_entries c j) m), K|]. split; [reflexivity|exact K].
Qed.
(** The part that defines [x], if there is one only, is the part written to. *)
Lemma the_part c k l v i bk tc tm x : open_view c k = Ok v -> map_get k (c_map c) = Some (Many l) -> In i l -> nth_error (c_body c) i = Some (bk, ITable tc tm) -> defines (c_body tc) x ->
  (forall j, In j l -> defines (part_entries c j) x -> j = i) ->
  exists t, v_find x v = Some t /\ nth_error (v_tables v) t = Some i.
Proof.
  unfold open_view. intros O M I1 N K U. rewrite M in O. destruct (proxy _ c l) as [ic|]; [|discriminate O]. cbn [rbind] in O. injection O as <-. cbn [v_tables v_map].
  destruct (map_parts_find c x (filter (is_part c) l) 0 []) as (u & j & E & Nn & K').
  { exists i. split; [apply filter_In; split; [exact I1|unfold is_part; rewrite N; reflexivity]|]. unfold part_entries. rewrite N. exact K. }
  exists u. split; [exact E|]. rewrite Nn. f_equal. apply U; [|exact K']. apply nth_error_In, filter_In in Nn. apply Nn.
Qed.
Lemma part_split c i bk tc tm : nth_error (c_body c) i = Some (bk, ITable tc tm) -> forall tc', exists b1 b2 m p tks d,
  c = Cont (b1 ++ (bk, ITable tc tm) :: b2) m p tks d /\ set_body (list_set i (bk, ITable tc' tm) (c_body c)) c = Cont (b1 ++ (bk, ITable tc' tm) :: b2) m p tks d.
Proof.
  intros N tc'. destruct c as [b m p tks d]. cbn [c_body set_body] in *. exists (firstn i b), (skipn (S i) b), m, p, tks, d. rewrite (set_split _ _ _ _ N). rewrite (split_at _ _ _ N) at 1. split; reflexivity.
Qed.
Lemma view_set_inside c k l v i bk tc tm x sk v0 val it : open_view c k = Ok v -> map_get k (c_map c) = Some (Many l) -> In i l -> nth_error (c_body c) i = Some (Some bk, ITable tc tm) ->
  consistent tc -> (exists j, map_get x (c_map tc) = Some (One j) /\ nth_error (c_body tc) j = Some (Some sk, v0)) -> k_key sk = x -> plain v0 -> plain it -> py_item PkTable val = Ok it ->
  (forall j, In j l -> defines (part_entries c j) x -> j = i) ->
  exists c', view_set_doc c v x val = Ok c' /\ inside (replaced x sk v0 it) c c'.
Proof.
  intros O M I1 N C (j & Mx & Nx) Kx P0 P E U. destruct (the_part c k l v i (Some bk) tc tm x O M I1 N) as (t & Ft & Nt); [exists sk, v0; split; [eapply nth_error_In, Nx|exact Kx]|exact U|].
  assert (Ex : exists tc', set_item tc x it = Ok tc').
  { unfold set_item. destruct (app_fuel_pos tc (Some (KSingle (skey_of_str x))) it) as [n ->]. cbn [contains]. rewrite Mx. cbn [rbind]. subst x. rewrite <- Mx, (replace_plain _ _ _ _ _ _ _ C Mx Nx P0 P). eauto. }
  destruct Ex as [tc' Es]. unfold view_set_doc, part_to_write. rewrite Ft, Nt. cbn [rbind]. unfold with_part. rewrite N, E. cbn [rbind]. rewrite (table_set_old (Some tm) tc x it j tc' Mx Es). cbn [rbind].
  eexists. split; [reflexivity|]. destruct (part_split c i (Some bk) tc tm N tc') as (b1 & b2 & m & p & tks & d & E1 & E2). rewrite E2. rewrite E1 at 1. apply i_table. apply i_here. split; [exact C|]. split; [exact Kx|]. split; [exact P0|]. split; [exact P|]. split; [exists j; split; assumption|exact Es].
Qed.
(** Deleting. *)
Lemma view_del_some c k l v i bk tc tm x sk v0 : open_view c k = Ok v -> map_get k (c_map c) = Some (Many l) -> In i l -> nth_error (c_body c) i = Some (Some bk, ITable tc tm) ->
  consistent tc -> (exists j, map_get x (c_map tc) = Some (One j) /\ nth_error (c_body tc) j = Some (Some sk, v0)) -> k_key sk = x -> plain v0 ->
  (forall j, In j l -> defines (part_entries c j) x -> j = i) ->
  exists c1 tc', with_part c i (fun _ tc => remove tc x) = Ok c1 /\ c1 = set_body (list_set i (Some bk, ITable tc' tm) (c_body c)) c /\ deleted x sk v0 tc tc' /\ c_dict tc' = dict_del x (c_dict tc) /\
    view_del_doc c v x = (if Nat.eqb (List.length (c_dict tc')) 0 && Nat.ltb 1 (List.length (v_tables v)) then let* c2 := remove_at c1 i in Ok (c2, drop_first (part_empty c1) (v_tables v)) else Ok (c1, v_tables v)).
Proof.
  intros O M I1 N C (j & Mx & Nx) Kx P0 U. destruct (the_part c k l v i (Some bk) tc tm x O M I1 N) as (t & Ft & Nt); [exists sk, v0; split; [eapply nth_error_In, Nx|exact Kx]|exact U|].
  destruct (remove_ok tc x (One j) C Mx) as (tc' & R & _ & D & _). exists (set_body (list_set i (Some bk, ITable tc' tm) (c_body c)) c), tc'.
  assert (W : with_part c i (fun _ tc => remove tc x) = Ok (set_body (list_set i (Some bk, ITable tc' tm) (c_body c)) c)) by (unfold with_part; rewrite N, R; reflexivity).
  split; [exact W|]. split; [reflexivity|]. split; [split; [exact C|split; [exact Kx|split; [exact P0|split; [exists j; split; assumption|exact R]]]]|]. split; [exact D|].
  unfold view_del_doc. rewrite Ft, Nt, W. cbn [rbind]. unfold part_empty at 1. destruct c as [b m p tks d]. cbn [set_body c_body] in *.
  rewrite (set_split _ _ _ _ N), nth_error_app2 by (rewrite firstn_length; lia). rewrite firstn_length_le by (apply Nat.lt_le_incl, nth_error_Some; congruence). rewrite Nat.sub_diag. reflexivity.
Qed.
Lemma remove_part c i bk it l : nth_error (c_body c) i = Some (Some bk, it) -> map_get (k_key bk) (c_map c) = Some (Many l) ->
  exists c', remove_at c i = Ok c' /\ c_body c' = list_set i (None, INull) (c_body c).
Proof.
  intros N M. unfold remove_at. rewrite N. destruct c as [b m p tks d]. cbn [c_map c_body] in *. rewrite M. destruct (filter _ l) as [|y [|z r]]; eexists; (split; [reflexivity|reflexivity]).
Qed.
(** The view's own container. *)
Lemma inner_plain c k l v i bk tc tm sk v0 : tamec c -> open_view c k = Ok v -> map_get k (c_map c) = Some (Many l) -> In i l -> nth_error (c_body c) i = Some (bk, ITable tc tm) -> In (Some sk, v0) (c_body tc) -> plain v0 ->
  consistent (v_inner v) /\ exists j sk' v', map_get (k_key sk) (c_map (v_inner v)) = Some (One j) /\ nth_error (c_body (v_inner v)) j = Some (Some sk', v') /\ k_key sk' = k_key sk /\ plain v'.
Proof.
  unfold open_view. intros T O M I1 N I2 P. rewrite M in O. destruct (proxy _ c l) as [ic|] eqn:Ep; [|discriminate O]. cbn [rbind] in O. injection O as <-. cbn [v_inner].
  pose proof (proj1 (proj2 (proj2 (all_f (app_fuel c None INull)))) c l T (range_f _ _ _ T M)) as G. rewrite Ep in G. destruct G as [G1 G2]. pose proof (tamec_cons _ G2) as C. split; [exact C|].
  assert (F : In ([k_key sk], Some (bare v0)) (facts ic)).
  { eapply Permutation_in; [symmetry; exact G1|]. apply in_flat_map. exists i. split; [exact I1|]. unfold part_facts. rewrite N, facts_body. apply in_flat_map. exists (Some sk, v0). split; [exact I2|]. cbn [efacts]. destruct v0; try destruct P; left; reflexivity. }
  rewrite facts_body in F. apply in_flat_map in F as ([[sk'|] v'] & I3 & F); [|destruct F]. cbn [efacts] in F. unfold under in F. apply in_map_iff in F as ([q o] & E & F). cbn [fst snd app] in E. injection E as Ek -> ->.
  assert (P' : plain v').
  { apply In_nth_error in I3 as [j I3]. pose proof (tamec_in _ _ _ G2 I3) as Tv. cbn [snd] in Tv. destruct v' as [| | | | | |tc' m'|]; try exact I; cbn [facts_item] in F.
    - destruct F as [F|[]]. injection F as F. destruct v0; try destruct P; discriminate F.
    - destruct F as [F|[]]. injection F as F. destruct v0; try destruct P; discriminate F.
    - destruct F as [F|[]]. injection F as F. destruct v0; try destruct P; discriminate F.
    - exfalso. apply in_app_or in F as [F|F]; [unfold own_fact in F; destruct (tm_super m') as [[]|]; [destruct F|destruct F as [F|[]]; discriminate F|destruct F as [F|[]]; discriminate F]|]. rewrite facts_body in F. apply in_flat_map in F as ([[s1|] v1] & _ & F); [|destruct F]. cbn [efacts] in F. unfold under in F. apply in_map_iff in F as (f & E & _). discriminate E.
    - apply tame_noaot in Tv. discriminate Tv. }
  apply In_nth_error in I3 as [j I3]. exists j, sk', v'. split; [rewrite <- Ek; eapply one_index; eassumption|]. split; [exact I3|]. split; [exact Ek|exact P'].
Qed.
Lemma set_plain_ok c x j sk v0 it : consistent c -> map_get x (c_map c) = Some (One j) -> nth_error (c_body c) j = Some (Some sk, v0) -> k_key sk = x -> plain v0 -> plain it ->
  exists c', set_item c x it = Ok c' /\ get_item c' x = Some (copy_trivia it v0) /\ (forall y, y <> x -> get_item c' y = get_item c y) /\ (forall y, map_get y (c_map c') = map_get y (c_map c)).
Proof.
  intros C Mx Nx Kx P0 P. unfold set_item. destruct (app_fuel_pos c (Some (KSingle (skey_of_str x))) it) as [n ->]. cbn [contains]. rewrite Mx. cbn [rbind]. subst x. rewrite <- Mx, (replace_plain _ _ _ _ _ _ _ C Mx Nx P0 P).
  destruct (put_ok c j sk v0 (copy_trivia it v0) C Mx Nx) as (_ & _ & _ & G1 & G2 & G3). eexists. split; [reflexivity|]. split; [exact G1|]. split; [exact G2|exact G3].
Qed.
(** What consistency says about the parts. *)
Lemma parts_many c k v i bk tc tm : consistent c -> open_view c k = Ok v -> nth_error (c_body c) i = Some (Some bk, ITable tc tm) -> k_key bk = k -> exists l, map_get k (c_map c) = Some (Many l) /\ In i l.
Proof.
  intros [M [F _]] O N <-. destruct (F _ _ _ N) as (ci & E & I1). unfold open_view in O. rewrite E in O. destruct ci as [j|l]; [discriminate O|]. exists l. split; [exact E|exact I1].
Qed.
Lemma part_keyed c k l j x : consistent c -> map_get k (c_map c) = Some (Many l) -> In j l -> defines (part_entries c j) x -> exists bk tc tm, nth_error (c_body c) j = Some (Some bk, ITable tc tm) /\ k_key bk = k /\ defines (c_body tc) x.
Proof.
  intros [M _] E I1 D. destruct (M _ _ E) as (_ & _ & K). rewrite Forall_forall in K. destruct (K _ I1) as (sk & it & N & Kk & _). unfold part_entries in D. rewrite N in D. destruct it as [| | | | | |tc tm|]; try (destruct D as (? & ? & [] & _)). eauto 6.
Qed.
Definition in_part (d : container) (k : str) (i : nat) (tc : container) (tm : tmeta) : Prop := exists bk, nth_error (c_body d) i = Some (Some bk, ITable tc tm) /\ k_key bk = k.
Definition only_there (d : container) (k : str) (i : nat) (x : str) : Prop := forall j tc tm, in_part d k j tc tm -> defines (c_body tc) x -> j = i.
Lemma parsed_part s d k i tc tm : parse s = Ok d -> in_part d k i tc tm -> consistent d /\ consistent tc.
Proof.
  intros H (bk & N & _). destruct (ok_parts d (parsed_ok s d H)) as (C & _ & F). split; [exact C|]. rewrite Forall_forall in F. pose proof (F _ (nth_error_In _ _ N)) as K. cbn [snd] in K. inversion K as [? ? Hc| |]; subst; [apply (ok_parts _ Hc)|]. discriminate.
Qed.
Lemma parsed_tame s d : parse s = Ok d -> no_aot_text s -> tamec d.
Proof. intros H N. destruct (parsed_says read_as read_HR s d H) as (l & D & A). apply A. eapply document_no_element; eassumption. Qed.
Lemma assign_view s d k v i tc tm sk v0 val it it0 : parse s = Ok d -> open_view d k = Ok v -> in_part d k i tc tm -> In (Some sk, v0) (c_body tc) -> plain v0 -> only_there d k i (k_key sk) ->
  plain it -> py_item PkTable val = Ok it -> py_item PkNone val = Ok it0 /\ plain it0 ->
  exists d', view_set_doc d v (k_key sk) val = Ok d' /\ inside (replaced (k_key sk) sk v0 it) d d' /\ (no_aot_text s -> exists v' w, view_set d v (k_key sk) val = Ok (d', v') /\ view_has v' (k_key sk) = Ok true /\ (plain w /\ get_item (v_inner v') (k_key sk) = Some (copy_trivia it0 w)) /\ forall y, y <> k_key sk -> view_get v' y = view_get v y).
Proof.
  intros H O Pt I1 P0 U P E (E' & P'). destruct (parsed_part _ _ _ _ _ _ H Pt) as [C Ct]. destruct Pt as (bk & N & Kb). destruct (parts_many _ _ _ _ _ _ _ C O N Kb) as (l & M & I2).
  apply In_nth_error in I1 as [j I1]. pose proof (one_index _ _ _ _ Ct I1 P0) as Mx.
  destruct (view_set_inside d k l v i bk tc tm (k_key sk) sk v0 val it O M I2 N Ct (ex_intro _ j (conj Mx I1)) eq_refl P0 P E) as (d' & Es & Hi).
  { intros j' Hj' D. destruct (part_keyed _ _ _ _ _ C M Hj' D) as (bk' & tc' & tm' & N' & K' & D'). eapply U; [exists bk'; split; eassumption|exact D']. }
  exists d'. split; [exact Es|]. split; [exact Hi|]. intros Na. destruct (inner_plain d k l v i (Some bk) tc tm sk v0 (parsed_tame s d H Na) O M I2 N (nth_error_In _ _ I1) P0) as (Ci & j' & sk' & v' & Mi & Ni & Ki & Pi).
  destruct (set_plain_ok _ _ _ _ _ it0 Ci Mi Ni Ki Pi P') as (ic' & Ei & G1 & G2 & G3). unfold view_set. rewrite Es. cbn [rbind]. unfold view_set_self. rewrite E'. cbn [rbind]. rewrite Ei. cbn [rbind].
  eexists _, v'. split; [reflexivity|]. unfold view_has, view_get. cbn [v_inner]. split; [destruct (app_fuel_pos ic' None INull) as [n ->]; cbn [contains]; rewrite G3, Mi; reflexivity|]. split; [split; [exact Pi|exact G1]|exact G2].
Qed.
Lemma del_self s d k v i tc tm sk v0 tabs : parse s = Ok d -> no_aot_text s -> open_view d k = Ok v -> in_part d k i tc tm -> In (Some sk, v0) (c_body tc) -> plain v0 -> exists v', view_del_self v tabs (k_key sk) = Ok v' /\ view_has v' (k_key sk) = Ok false /\ forall y, y <> k_key sk -> view_get v' y = view_get v y.
Proof.
  intros H Na O Pt I1 P0. destruct (parsed_part _ _ _ _ _ _ H Pt) as [C Ct]. destruct Pt as (bk & N & Kb). destruct (parts_many _ _ _ _ _ _ _ C O N Kb) as (l & M & I2).
  destruct (inner_plain d k l v i (Some bk) tc tm sk v0 (parsed_tame s d H Na) O M I2 N I1 P0) as (Ci & j' & sk' & v' & Mi & Ni & Ki & Pi).
  destruct (remove_ok _ _ _ Ci Mi) as (ic' & R & _ & _ & _ & _ & G2 & G3). unfold view_del_self. rewrite R. cbn [rbind]. eexists. split; [reflexivity|]. unfold view_has, view_get. cbn [v_inner]. split; [|exact G2].
  destruct (app_fuel_pos ic' None INull) as [n ->]. cbn [contains]. rewrite G3, str_eqb_refl. reflexivity.
Qed.
Lemma other_left tc tc' x sk' v' : consistent tc -> c_dict tc' = dict_del x (c_dict tc) -> In (Some sk', v') (c_body tc) -> k_key sk' <> x -> 0 < List.length (c_dict tc').
Proof.
  intros [_ [F (_ & _ & D)]] -> I1 K. apply In_nth_error in I1 as [j I1]. destruct (F _ _ _ I1) as (ci & E & _). assert (X : In (k_key sk') (c_dict tc)) by (apply D; congruence).
  assert (Y : In (k_key sk') (dict_del x (c_dict tc))). { unfold dict_del. apply filter_In. split; [exact X|]. destruct (str_eqb x (k_key sk')) eqn:Q; [apply str_eqb_eq in Q; symmetry in Q; contradiction|]. reflexivity. }
  destruct (dict_del x (c_dict tc)); [destruct Y|cbn; lia].
Qed.
Lemma none_left tc tc' x : consistent tc -> c_dict tc' = dict_del x (c_dict tc) -> (forall y, defines (c_body tc) y -> y = x) -> c_dict tc' = [].
Proof.
  intros [M [_ (_ & _ & D)]] -> K. assert (X : forall y, In y (dict_del x (c_dict tc)) -> False); [|destruct (dict_del x (c_dict tc)) as [|y r]; [reflexivity|exfalso; apply (X y); left; reflexivity]].
  intros y Hy. unfold dict_del in Hy. apply filter_In in Hy as [Hy N]. apply D in Hy. destruct (map_get y (c_map tc)) as [ci|] eqn:E; [|congruence]. destruct (M _ _ E) as (Ne & _ & Kf). apply roomy_ne in Ne. destruct (idxs ci) as [|j r]; [congruence|]. destruct (Forall_inv Kf) as (sk & it & Nn & Kk & _).
  rewrite (K y) in N; [rewrite str_eqb_refl in N; discriminate N|]. exists sk, it. split; [eapply nth_error_In, Nn|exact Kk].
Qed.
Lemma delete_view s d k v i tc tm sk v0 : parse s = Ok d -> open_view d k = Ok v -> in_part d k i tc tm -> In (Some sk, v0) (c_body tc) -> plain v0 -> only_there d k i (k_key sk) ->
  exists c1 tc' bk l, map_get k (c_map d) = Some (Many l) /\ In i l /\ nth_error (c_body d) i = Some (Some bk, ITable tc tm) /\ k_key bk = k /\ c1 = set_body (list_set i (Some bk, ITable tc' tm) (c_body d)) d /\ deleted (k_key sk) sk v0 tc tc' /\ c_dict tc' = dict_del (k_key sk) (c_dict tc) /\
    view_del_doc d v (k_key sk) = (if Nat.eqb (List.length (c_dict tc')) 0 && Nat.ltb 1 (List.length (v_tables v)) then let* c2 := remove_at c1 i in Ok (c2, drop_first (part_empty c1) (v_tables v)) else Ok (c1, v_tables v)).
Proof.
  intros H O Pt I1 P0 U. destruct (parsed_part _ _ _ _ _ _ H Pt) as [C Ct]. destruct Pt as (bk & N & Kb). destruct (parts_many _ _ _ _ _ _ _ C O N Kb) as (l & M & I2).
  apply In_nth_error in I1 as [j I1]. pose proof (one_index _ _ _ _ Ct I1 P0) as Mx.
  destruct (view_del_some d k l v i bk tc tm (k_key sk) sk v0 O M I2 N Ct (ex_intro _ j (conj Mx I1)) eq_refl P0) as (c1 & tc' & _ & E1 & Dl & Dd & Ev).
  { intros j' Hj' D. destruct (part_keyed _ _ _ _ _ C M Hj' D) as (bk' & tc0 & tm' & N' & K' & D'). eapply U; [exists bk'; split; eassumption|exact D']. }
  exists c1, tc', bk, l. auto 10.
Qed.
Lemma delete_line s d k v i tc tm sk v0 sk' v' : parse s = Ok d -> open_view d k = Ok v -> in_part d k i tc tm -> In (Some sk, v0) (c_body tc) -> plain v0 -> only_there d k i (k_key sk) ->
  tm_super tm = Some false -> In (Some sk', v') (c_body tc) -> k_key sk' <> k_key sk ->
  exists d' tabs, view_del_doc d v (k_key sk) = Ok (d', tabs) /\ nested (deleted (k_key sk) sk v0) d d'.
Proof.
  intros H O Pt I1 P0 U Hs I2 K. destruct (parsed_part _ _ _ _ _ _ H Pt) as [C Ct]. destruct (delete_view _ _ _ _ _ _ _ _ _ H O Pt I1 P0 U) as (c1 & tc' & bk & l & M & Il & N & Kb & E1 & Dl & Dd & Ev).
  pose proof (other_left _ _ _ _ _ Ct Dd I2 K) as L1. assert (Z : Nat.eqb (List.length (c_dict tc')) 0 = false) by (apply Nat.eqb_neq; lia). rewrite Z in Ev. cbn [andb] in Ev.
  exists c1, (v_tables v). split; [exact Ev|]. subst c1. destruct (part_split d i (Some bk) tc tm N tc') as (b1 & b2 & m & p & tks & dd & E1 & E2). rewrite E2, E1. apply n_table; [apply n_here, Dl|]. eapply deleted_head; [exact Dl|exact Hs|right; exact L1].
Qed.
Lemma delete_part s d k v i tc tm sk v0 j tcj tmj : parse s = Ok d -> open_view d k = Ok v -> in_part d k i tc tm -> In (Some sk, v0) (c_body tc) -> plain v0 -> only_there d k i (k_key sk) ->
  (forall y, defines (c_body tc) y -> y = k_key sk) -> in_part d k j tcj tmj -> j <> i ->
  exists d' tabs b1 bk b2, view_del_doc d v (k_key sk) = Ok (d', tabs) /\ k_key bk = k /\ c_body d = b1 ++ (Some bk, ITable tc tm) :: b2 /\ c_body d' = b1 ++ (None, INull) :: b2.
Proof.
  intros H O Pt I1 P0 U K Pj Ne. destruct (parsed_part _ _ _ _ _ _ H Pt) as [C Ct]. destruct (delete_view _ _ _ _ _ _ _ _ _ H O Pt I1 P0 U) as (c1 & tc' & bk & l & M & Il & N & Kb & E1 & Dl & Dd & Ev).
  rewrite (none_left _ _ _ Ct Dd K) in Ev. cbn [List.length Nat.eqb andb] in Ev.
  destruct Pj as (bj & Nj & Kj). destruct (parts_many _ _ _ _ _ _ _ C O Nj Kj) as (l' & M' & Ij). rewrite M in M'. injection M' as <-.
  assert (Z : Nat.ltb 1 (List.length (v_tables v)) = true).
  { unfold open_view in O. rewrite M in O. destruct (proxy _ d l); [|discriminate O]. cbn [rbind] in O. injection O as <-. cbn [v_tables].
    assert (A : In i (filter (is_part d) l)) by (apply filter_In; split; [exact Il|unfold is_part; rewrite N; reflexivity]). assert (B : In j (filter (is_part d) l)) by (apply filter_In; split; [exact Ij|unfold is_part; rewrite Nj; reflexivity]).
    destruct (filter (is_part d) l) as [|x [|y r]]; [destruct A|destruct A as [<-|[]], B as [<-|[]]; congruence|reflexivity]. }
  rewrite Z in Ev. assert (N1 : nth_error (c_body c1) i = Some (Some bk, ITable tc' tm)).
  { subst c1. destruct d as [b m p tks dd]. cbn [set_body c_body] in *. rewrite nth_list_set, Nat.eqb_refl. assert (X : i < List.length b) by (apply nth_error_Some; congruence). apply Nat.ltb_lt in X. rewrite X. reflexivity. }
  destruct (remove_part c1 i bk (ITable tc' tm) l N1) as (c2 & R & B); [subst c1; destruct d; rewrite Kb; exact M|]. rewrite R in Ev. cbn [rbind] in Ev.
  exists c2, (drop_first (part_empty c1) (v_tables v)), (firstn i (c_body d)), bk, (skipn (S i) (c_body d)). split; [exact Ev|]. split; [exact Kb|]. split; [apply split_at, N|]. rewrite B. subst c1. destruct d as [b m p tks dd]. cbn [set_body c_body] in *.
  rewrite (set_split _ _ _ _ N1), (set_split _ _ _ _ N). rewrite firstn_app, firstn_firstn, Nat.min_id. assert (X : i <= List.length b) by (apply Nat.lt_le_incl, nth_error_Some; congruence). rewrite firstn_length_le, Nat.sub_diag by exact X. cbn [firstn]. rewrite app_nil_r. f_equal. f_equal.
  rewrite skipn_app, firstn_length_le by exact X. rewrite skipn_all2 by (rewrite firstn_length_le by exact X; lia). replace (S i - i) with 1 by lia. reflexivity.
Qed.
Lemma made_flat pk v g t ml : py_item pk v = Ok (IArray g t ml) -> ml = false.
Proof.
  intros E. destruct v as [s|z|b|f|x|x|x|l|kvs]; try discriminate E.
  - rewrite py_item_list in E. cbv zeta in E. destruct (mapr _ l) as [its|]; cbn [rbind] in E; [|discriminate]. destruct (wants_aot pk l); [discriminate|]. destruct (arr_extend _ _); cbn [rbind] in E; [|discriminate]. injection E as _ _ <-. reflexivity.
  - rewrite py_item_dict in E. cbv zeta in E. destruct (mapr _ kvs) as [its|]; cbn [rbind] in E; [|discriminate]. destruct (build _ _); cbn [rbind] in E; [|discriminate]. destruct (pk_inline pk); discriminate.
Qed.
Lemma dotted_line bk tc tm sk v0 : plain v0 -> k_dotted bk = true -> tm_super tm = Some true -> tm_disp tm = None -> tm_trivia tm = default_trivia -> c_body tc = [(Some sk, v0)] -> Render.etext None false (Some bk, ITable tc tm) = ContText.line (k_orig bk ++ [46]%N ++ k_orig sk) sk v0.
Proof.
  intros P D Hs Hd Ht B. destruct tc as [b m p tks d]. cbn [c_body] in B. subst b. cbn [Render.etext]. unfold table_is_super at 1. rewrite Hs. rewrite D. cbn [andb negb].
  rewrite render_table_eq. cbn [c_body]. rewrite D, Render.btext_one, ContText.etext_plain by exact P. unfold Render.table_head, table_is_super, Render.table_key. rewrite Hs, Hd, D, Ht. cbn [negb orb]. rewrite andb_false_r. reflexivity.
Qed.
Lemma made_same val it it' : py_fine val -> tablish val = false -> py_item PkTable val = Ok it -> py_item PkNone val = Ok it' -> item_string it' = item_string it.
Proof.
  intros H T E E'. destruct (proj1 (proj1 (all_made val (fine_ok val H))) PkTable (or_intror T)) as (i & E1 & _ & Tx). destruct (proj1 (proj1 (all_made val (fine_ok val H))) PkNone (or_intror T)) as (i' & E2 & _ & Tx').
  rewrite E in E1. injection E1 as <-. rewrite E' in E2. injection E2 as <-. rewrite Tx, Tx'. reflexivity.
Qed.
