(** EditAll: edits anywhere in a neat document (C43). *)
From Verif Require Import Base Source Utils Items Container Arrays Parser Api Lemmas Wf Errors Render Consist OMap ContOps ContText PyVal PyItem ItemConv DumpValue Numbers Dates DumpText DumpCont DumpRender Grammar Denote CompValue Written Document Edit Changes Possible ListSpec Neat EditNeat MadeSnug MadeNeat EditOps EditMore EditSwap.
From Coq Require Import ZifyBool ZifyNat ZifyN.
Open Scope nat_scope.

(** * Into an array of tables *)
Lemma open_array tops path key L ds j c m : nelems tops path key L ds -> nth_error L j = Some (c, m) ->
  exists ds1 d ds2 b1 b2, ds = ds1 ++ d :: ds2 /\ List.length ds1 = j /\ tidyh (tm_trivia m) /\ c_body c = b1 ++ b2 /\ nbody tops path (Some key) b1 b2 d /\
    forall c' b1' b2' d', c_body c' = b1' ++ b2' -> nbody tops path (Some key) b1' b2' d' -> nelems tops path key (list_set j (c', m) L) (ds1 ++ d' :: ds2).
Proof.
  intros H. revert j. induction H as [|tops path key c0 m0 L b1 b2 d ds Ti Km B Nb H IH]; intros [|j] N; try discriminate; cbn [nth_error] in N.
  - injection N as -> ->. exists [], d, ds, b1, b2. split; [reflexivity|]. split; [reflexivity|]. split; [exact Ti|]. split; [exact B|]. split; [exact Nb|]. intros c' b1' b2' d' B' N'. cbn [list_set app]. econstructor; eassumption.
  - destruct (IH j N) as (ds1 & d1 & ds2 & x & y & -> & Lj & Ti' & B' & Nb' & G). exists (d :: ds1), d1, ds2, x, y. split; [reflexivity|]. split; [cbn; congruence|]. split; [exact Ti'|]. split; [exact B'|]. split; [exact Nb'|].
    intros c' b1' b2' d' B2 N2. cbn [list_set app]. econstructor; try eassumption. eapply G; eassumption.
Qed.

(** * Along the path *)
Record went (super : bool) (tops path : list str) (pfx : option str) (b1 b2 : list entry) (d : list (str * pyv)) (p : list pstep) (o : eop) (c' : container) (b1' b2' : list entry) (d' : list (str * pyv)) : Prop := {
  we_ok : ok_cont c'; we_body : c_body c' = b1' ++ b2'; we_neat : nbody tops path pfx b1' b2' d'; we_edited : edited p o d d';
  we_bare : Forall bare_entry b1 -> Forall bare_entry b1'; we_keyed : super = true -> keyed_in (b1 ++ b2) -> keyed_in (b1' ++ b2') }.
(** Where the indices lead: the arrays of tables at the top, and the names, on the way. *)
Fixpoint place (tops path : list str) (p : list pstep) {struct p} : list str * list str :=
  match p with
  | Edit.Key k :: p' => match p' with
                   | Index _ :: p'' => place (match path with [] => k :: tops | _ => tops end) (path ++ [k]) p''
                   | _ => place tops (path ++ [k]) p'
                   end
  | _ => (tops, path)
  end.
Lemma edit_went p : forall m c tops path pfx b1 b2 d o m' t, ok_cont c -> c_body c = b1 ++ b2 -> nbody tops path pfx b1 b2 d -> pmeans path pfx ->
  table_at m c p = Some (m', t) -> legal_op (fst (place tops path p)) (snd (place tops path p)) (super_of m') t o -> exists c' b1' b2' d', edit_at m c p o = Ok c' /\ went (super_of m) tops path pfx b1 b2 d p o c' b1' b2' d'.
Proof.
  induction p as [p IH] using (induction_ltof1 _ (@List.length _)). unfold ltof in IH. intros m c tops path pfx b1 b2 d o m' t O B H Hp Ta L. destruct p as [|[k|j] p]; [| |discriminate].
  - cbn [table_at] in Ta. injection Ta as <- <-. destruct (op_done m tops path pfx c b1 b2 d o O B H Hp L) as (c' & b1' & b2' & d' & E & [A1 A2 A3 A4 A5 A6]). exists c', b1', b2', d'. split; [exact E|]. split; auto. constructor. exact A4.
  - cbn [table_at edit_at] in *. destruct (ok_parts c O) as (C & Pr & F). destruct (map_get k (c_map c)) as [[i|]|] eqn:M; try discriminate. destruct (get_one _ _ _ C M) as (sk & it & N & K & _). rewrite N in *.
    pose proof (ok_in c i _ O N) as Oi. cbn [snd] in Oi. destruct it as [ | | | | | |tc tm|l n q tr]; try discriminate.
    + destruct (k_dotted sk) eqn:Kd; [discriminate|]. pose proof N as N'. rewrite B in N'. destruct (table_place _ _ _ _ _ _ _ _ _ H N' Kd eq_refl) as (x & y & a & v & b & Eb & Ei & Ed & Na & Nt & Re).
      destruct (open_table _ _ _ _ _ _ _ Nt) as (c1 & c2 & dd & -> & [T1 T0 T3 T4 T5 T6 T7 T8]). assert (Lp : legal_op (fst (place tops (path ++ [k]) p)) (snd (place tops (path ++ [k]) p)) (super_of m') t o) by (destruct p as [|[|] p]; [exact L|exact L|discriminate Ta]). rewrite <- K in Lp. assert (Ot : ok_cont tc) by (inversion Oi; [assumption|discriminate]).
      destruct (IH p ltac:(cbn; lia) (Some tm) tc _ _ _ _ _ _ o m' t Ot T7 T8 T5 Ta Lp) as (tc' & c1' & c2' & dd' & E & [W1 W2 W3 W4 W5 W6]). rewrite E. cbn [rbind].
      assert (Nt' : ntable tops path pfx sk (ITable tc' tm) (PDict dd')).
      { apply (close_table _ _ _ _ _ _ c1' c2'); [apply ok_parts, W1|]. split; try assumption. intros Es. destruct (T6 Es) as (X1 & X2 & X3). split; [exact X1|]. split; [auto|]. intros Es'. apply W6; [cbn [super_of]; rewrite Es'; reflexivity|exact (X3 Es')]. }
      eexists _, b1, (x ++ (Some sk, ITable tc' tm) :: y), _. split; [reflexivity|]. split.
      * eapply ok_set; [exact O|exact N|reflexivity|constructor; exact W1].
      * destruct c as [bd ? ? ? ?]. cbn [set_body c_body] in *. rewrite B, Eb, Ei, app_assoc, set_middle, <- app_assoc. reflexivity.
      * apply Re, Nt'.
      * subst k. rewrite Ed. apply ed_key; assumption.
      * auto.
      * intros _ _. exists (Some sk, ITable tc' tm). split; [apply in_or_app; right; apply in_or_app; right; left; reflexivity|discriminate].
    + destruct p as [|[|j] p]; try discriminate. destruct (nth_error l j) as [[tc tm]|] eqn:Nj; [|discriminate]. assert (Kd : k_dotted sk = false).
      { destruct H as [tops path pfx b1 b2 ps dl H1 H2 Nd]. assert (Ib : In (Some sk, IAoT l n q tr) (b1 ++ b2)) by (rewrite <- B; eapply nth_error_In, N). apply in_app_iff in Ib as [Ib|Ib].
        - exfalso. apply in_split in Ib as (x & y & ->). destruct (nlines_cut _ _ _ _ H1) as (l1 & _ & A2). inversion A2 as [|? ? ? ? He|? names v0 ? ? ? ? He]; subst; inversion He as [|? ? ? P|]; subst. destruct P.
        - apply ntables_entry in H2. rewrite Forall_forall in H2. destruct (H2 _ Ib) as [[X _]|(s2 & E2 & Kd & _)]; [discriminate|]. injection E2 as <-. exact Kd. }
      pose proof N as N'. rewrite B in N'. destruct (table_place _ _ _ _ _ _ _ _ _ H N' Kd eq_refl) as (x & y & a & v & b & Eb & Ei & Ed & Na & Nt & Re).
      inversion Nt as [| |? ? ? ? ? ? ? ? ds Kd' Nm Nds Ne]; subst. destruct (open_array _ _ _ _ _ _ _ _ Ne Nj) as (ds1 & dd & ds2 & c1 & c2 & -> & Lj & Ti & T7 & T8 & Rj).
      assert (Ot : ok_cont tc). { inversion Oi as [|? ? ? ? Fo|? X]; subst; [|discriminate]. rewrite Forall_forall in Fo. apply (Fo (tc, tm)). eapply nth_error_In, Nj. }
      destruct (IH p ltac:(cbn; lia) (Some tm) tc _ _ _ _ _ _ o m' t Ot T7 T8 (key_means_snoc _ _ _ _ Hp Nm) Ta L) as (tc' & c1' & c2' & dd' & E & [W1 W2 W3 W4 W5 W6]). rewrite E. cbn [rbind].
      assert (Nt' : ntable tops path pfx sk (IAoT (list_set j (tc', tm) l) n q tr) (PList (map PDict (ds1 ++ dd' :: ds2)))). { apply nt_aot; [assumption|assumption|destruct ds1; discriminate|]. eapply Rj; eassumption. }
      eexists _, b1, (x ++ (Some sk, IAoT (list_set j (tc', tm) l) n q tr) :: y), _. split; [reflexivity|]. split.
      * eapply ok_set; [exact O|exact N|reflexivity|]. inversion Oi as [|? ? ? ? Fo|? X]; subst; [|discriminate]. constructor. rewrite (set_split _ _ _ _ Nj). rewrite (split_at _ _ _ Nj) in Fo. apply Forall_app in Fo as [F1 F2]. inversion F2; subst. apply Forall_app. split; [assumption|]. constructor; assumption.
      * destruct c as [bd ? ? ? ?]. cbn [set_body c_body] in *. rewrite B, app_assoc, set_middle, <- app_assoc. reflexivity.
      * apply Re, Nt'.
      * rewrite !map_app. cbn [map]. rewrite <- Lj, <- (map_length PDict ds1). apply ed_elem; assumption.
      * auto.
      * intros _ _. exists (Some sk, IAoT (list_set j (tc', tm) l) n q tr). split; [apply in_or_app; right; apply in_or_app; right; left; reflexivity|discriminate].
Qed.
(** * One edit, and many *)
Definition legal (c : container) (p : list pstep) (o : eop) : Prop := exists m t, table_at None c p = Some (m, t) /\ legal_op (fst (place [] [] p)) (snd (place [] [] p)) (super_of m) t o.
Lemma edit_neat c d p o : ok_cont c -> neat c d -> legal c p o -> exists c' d', edit_at None c p o = Ok c' /\ ok_cont c' /\ neat c' d' /\ edited p o d d'.
Proof.
  intros O (b1 & b2 & B & H) (m & t & T & L). destruct (edit_went p None c _ _ _ _ _ _ o m t O B H eq_refl T L) as (c' & b1' & b2' & d' & E & [W1 W2 W3 W4 _ _]). exists c', d'. split; [exact E|]. split; [exact W1|]. split; [exists b1', b2'; auto|exact W4].
Qed.
Fixpoint all_legal (c : container) (es : list (list pstep * eop)) : Prop :=
  match es with
  | [] => True
  | (p, o) :: es => legal c p o /\ forall c', edit_at None c p o = Ok c' -> all_legal c' es
  end.
Lemma edits_neat es : forall c d, ok_cont c -> neat c d -> all_legal c es -> exists c' d', edit_all c es = Ok c' /\ ok_cont c' /\ neat c' d' /\ history es d d'.
Proof.
  induction es as [|[p o] es IH]; intros c d O N L; cbn [edit_all all_legal] in *.
  - exists c, d. split; [reflexivity|]. split; [exact O|]. split; [exact N|constructor].
  - destruct L as [L1 L2]. destruct (edit_neat c d p o O N L1) as (c1 & d1 & E & O1 & N1 & H1). rewrite E. cbn [rbind]. destruct (IH c1 d1 O1 N1 (L2 _ E)) as (c' & d' & E' & O' & N' & H'). exists c', d'. split; [exact E'|]. split; [exact O'|]. split; [exact N'|]. econstructor; eassumption.
Qed.

(** * The edits of Possible.v *)
Lemma table_at_ok p : forall m c m' t, ok_cont c -> table_at m c p = Some (m', t) -> ok_cont t.
Proof.
  assert (G : forall n p m c m' t, List.length p <= n -> ok_cont c -> table_at m c p = Some (m', t) -> ok_cont t); [|intros; eapply (G (List.length p)); eauto].
  induction n as [|n IH]; intros q m c m' t Ln O T; (destruct q as [|[k|i] q]; [injection T as <- <-; exact O| |discriminate T]); [inversion Ln|]. cbn [List.length] in Ln. cbn [table_at] in T. destruct (ok_parts c O) as (_ & _ & F).
  destruct (map_get k (c_map c)) as [[i|]|]; try discriminate. destruct (nth_error (c_body c) i) as [[[sk|] it]|] eqn:N; try discriminate; apply nth_error_In in N; rewrite Forall_forall in F; apply F in N; cbn [snd] in N; destruct it as [ | | | | | |tc tm|l a b r]; try discriminate.
  - destruct (k_dotted sk); [discriminate|]. inversion N; subst; [|discriminate]. eapply (IH q); [lia|eassumption|exact T].
  - destruct q as [|[?|j] q]; try discriminate. cbn [List.length] in Ln. destruct (nth_error l j) as [[tc tm]|] eqn:Nj; [|discriminate]. apply nth_error_In in Nj. inversion N as [|? ? ? ? Fl|]; subst; [|discriminate]. rewrite Forall_forall in Fl. apply Fl in Nj. eapply (IH q); [lia|exact Nj|exact T].
  - destruct q as [|[?|j] q]; try discriminate. cbn [List.length] in Ln. destruct (nth_error l j) as [[tc tm]|] eqn:Nj; [|discriminate]. apply nth_error_In in Nj. inversion N as [|? ? ? ? Fl|]; subst; [|discriminate]. rewrite Forall_forall in Fl. apply Fl in Nj. eapply (IH q); [lia|exact Nj|exact T].
Qed.
Lemma py_index_empty j : py_index 0 j = None.
Proof. unfold py_index. destruct (_ || _)%bool eqn:X; [reflexivity|lia]. Qed.
Lemma place_in p : forall tops path, path <> [] -> fst (place tops path p) = tops /\ snd (place tops path p) <> [].
Proof.
  assert (G : forall n p tops path, (List.length p <= n)%nat -> path <> [] -> fst (place tops path p) = tops /\ snd (place tops path p) <> []); [|intros tops path; apply (G (List.length p) p); apply le_n].
  induction n as [|n IH]; intros q tops path Ln Hp; (destruct q as [|[k|i] q]; [split; [reflexivity|exact Hp]| |split; [reflexivity|exact Hp]]); [inversion Ln|]. cbn [List.length] in Ln. apply le_S_n in Ln.
  assert (Q : path ++ [k] <> []) by (destruct path; discriminate). destruct q as [|[k2|i2] q2]; [exact (IH [] tops _ Ln Q)|exact (IH _ tops _ Ln Q)|].
  cbn [List.length] in Ln. cbn [place]. replace (match path with [] => k :: tops | _ => tops end) with tops by (destruct path; [contradiction|reflexivity]). apply IH; [apply le_S_n, le_S, Ln|exact Q].
Qed.
Lemma place_around p k v : fresh_names p k v -> match p with Index _ :: _ => False | _ => True end ->
  (is_dict v = true -> ~ In k (fst (place [] [] p))) /\ avoids (sub_tops (fst (place [] [] p)) (snd (place [] [] p)) k v) v.
Proof.
  intros F Hp. unfold avoids, fresh_names in *. destruct p as [|[a|i] p]; [|destruct p as [|[a2|i2] p]|destruct Hp].
  - split; [intros _ []|]. intros t Ht. destruct v; cbn [place fst snd sub_tops around In] in *; try (destruct Ht; fail). apply F, Ht.
  - split; [intros _ []|]. intros t Ht. destruct v; destruct Ht.
  - change (place [] [] (Edit.Key a :: Edit.Key a2 :: p)) with (place [] [a] (Edit.Key a2 :: p)). destruct (place_in (Edit.Key a2 :: p) [] [a]) as [-> H]; [discriminate|]. split; [intros _ []|]. intros t Ht. unfold sub_tops in Ht. destruct v; try (destruct Ht; fail). destruct (snd _); [contradiction|destruct Ht].
  - change (place [] [] (Edit.Key a :: Index i2 :: p)) with (place [a] [a] p). destruct (place_in p [a] [a]) as [-> H]; [discriminate|]. cbn [around] in F. split; [intros D [X|[]]; subst; destruct (F k (or_introl eq_refl)) as [G _]; exact (G D eq_refl)|].
    intros t Ht. apply F. unfold sub_tops in Ht. destruct v; try exact Ht. destruct (snd _); [contradiction|exact Ht].
Qed.
Lemma possible_legal es : forall c d, ok_cont c -> neat c d -> possible c es -> all_legal c es.
Proof.
  induction es as [|[p o] es IH]; intros c d Oc N H; [exact I|]. destruct H as [(m & t & T & O) H]. assert (Le : legal c p o).
  { exists m, t. split; [exact T|]. assert (Hp : match p with Index _ :: _ => False | _ => True end) by (destruct p as [|[|] ?]; try exact I; discriminate T). pose proof (table_at_ok p None c m t Oc T) as Ot. destruct (ok_parts t Ot) as (C & _ & _).
    assert (Ar : forall k n, array_here t k n -> exists l, array_at t k l /\ List.length l = n) by (intros k n (l & a & b & c0 & G & Ln); exists l; split; [exists a, b, c0; exact G|exact Ln]).
    assert (Ix : forall k i a sk it b, map_get k (c_map t) = Some (One i) -> c_body t = a ++ (Some sk, it) :: b -> k_key sk = k -> i = List.length a).
    { intros k i a sk it b M B K. symmetry. apply (EditNeat.one_index t k i (List.length a) sk it C M); [rewrite B, nth_error_app2, Nat.sub_diag by apply le_n; reflexivity|exact K]. }
    destruct O as [k v Fv Tv O|k v Fv Tv Fr O|k I1 I2|k j v n Fv Dv Fr A|k j n A Hj Hn|k v Fv Ab Fr|s Ts| |k s Hm Ts Bs|k n Hm|k q o it i G1 G2 G3]; cbn [legal_op].
    - split; [exact Fv|]. rewrite Tv. destruct O as [O|[O|[O1 O2]]]; [left; exact O|right; left; exact O|]. right. right. split; [destruct O1 as [O1|[n O1]]; [left; exact O1|right; destruct (Ar _ _ O1) as (l & X & _); exists l; exact X]|].
      assert (M : exists i, map_get k (c_map t) = Some (One i)).
      { destruct O1 as [(m0 & x0 & G)|(n & l & a & b & c0 & G & _)]; [cbn [table_at] in G|unfold get_item in G]; destruct (map_get k (c_map t)) as [[i|]|]; try discriminate; exists i; reflexivity. }
      destruct M as [i M]. exists i. split; [exact M|]. destruct O2 as [(a & sk & it & b & B & K & G)|(a & sk & it & b & B & K & G)]; pose proof (Ix _ _ _ _ _ _ M B K) as ->.
      + left. intros j s x L Nj. apply G. apply nth_error_In with j. rewrite B, nth_error_app1 in Nj by exact L. exact Nj.
      + right. intros j e L Nj. apply G. rewrite B in Nj. replace (a ++ (Some sk, it) :: b) with ((a ++ [(Some sk, it)]) ++ b) in Nj by (rewrite <- app_assoc; reflexivity). rewrite nth_error_app2 in Nj by (rewrite app_length, Nat.add_1_r; exact L). eapply nth_error_In, Nj.
    - split; [exact Fv|]. rewrite Tv. destruct (place_around p k v Fr Hp) as [A1 A2]. split; [exact A1|]. split; [exact A2|]. destruct O as [O|[O|[[O1 [n O2]]|[O1 O2]]]]; [left; exact O|right; left; exact O| |].
      + right. right. left. split; [exact O1|]. destruct (Ar _ _ O2) as (l & X & _). exists l. exact X.
      + right. right. right. split; [exact O1|]. intros i j sk it M L Nj. destruct (k_dotted sk) eqn:Kd; [|reflexivity]. exfalso. apply O2. destruct (get_one t k i C M) as (s0 & v0 & N0 & K0 & _). apply nth_error_split in N0 as (a & b & B & La).
        exists a, s0, v0, b, sk, it. split; [exact B|]. split; [exact K0|]. split; [|exact Kd]. rewrite B in Nj. replace (a ++ (Some s0, v0) :: b) with ((a ++ [(Some s0, v0)]) ++ b) in Nj by (rewrite <- app_assoc; reflexivity). rewrite nth_error_app2 in Nj by (rewrite app_length, Nat.add_1_r; subst i; exact L). eapply nth_error_In, Nj.
    - split; assumption.
    - split; [exact Fv|]. split; [exact Dv|]. destruct (place_around p k (PList [v]) Fr Hp) as [_ A2]. split; [|destruct (Ar _ _ A) as (l & X & _); exists l; exact X].
      intros x Hx X. apply (A2 x); [exact Hx|]. cbn [dict_names flat_map]. apply in_or_app. left. exact X.
    - destruct (Ar _ _ A) as (l & X & Ln). exists l. split; [exact X|]. subst n. split; [exact Hj|]. destruct l as [|x [|y l]]; [exfalso; apply Hj; apply py_index_empty|exfalso; apply Hn; reflexivity|]. cbn. apply le_n_S, le_n_S, Nat.le_0_l.
    - split; [exact Fv|]. split; [exact Ab|]. intros Tv. exact (place_around p k v (Fr Tv) Hp).
    - exact Ts.
    - exact I.
    - split; [|split; [exact Ts|exact Bs]]. destruct Hm as [Hm|[Hm|[n Hm]]]; [left; exact Hm|right; left; exact Hm|]. right. right. destruct (Ar _ _ Hm) as (l & X & _). exists l. exact X.
    - destruct Hm as [Hm|[Hm|[n0 Hm]]]; [left; exact Hm|right; left; exact Hm|]. right. right. destruct (Ar _ _ Hm) as (l & X & _). exists l. exact X.
    - exists it, i. auto. }
  split; [exact Le|]. intros c' E. destruct (edit_neat c d p o Oc N Le) as (c1 & d1 & E1 & O1 & N1 & _). rewrite E in E1. injection E1 as <-. apply (IH c' d1 O1 N1), H, E.
Qed.
