(** Lemmas about Heap.v: when reading leaves every object as it was. *)
From Verif Require Import Base Source Utils Items Container Arrays Heap ItemInd Lemmas.
From Coq Require Import Lia.
Open Scope nat_scope.

(** All references of a cell are below [n]. *)
Definition refs_below (n : nat) (c : cell) : Prop :=
  match c with
  | HLeaf _ => True
  | HTable hc _ => Forall (fun kv : option skey * nat => snd kv < n) (hc_body hc)
  | HAoT l _ _ _ => Forall (fun r => r < n) l
  end.
Definition closed (h : heap) : Prop := Forall (refs_below (List.length h)) h.
Definition body_keys (b : list (option skey * nat)) : list str :=
  flat_map (fun kv : option skey * nat => match fst kv with Some k => [k_key k] | None => [] end) b.
(** The keys of the table at position [i] of a body. *)
Definition part_keys (h : heap) (c : hcont) (i : nat) : list str :=
  match nth_error (hc_body c) i with
  | Some (_, r) => match nth_error h r with Some (HTable tc _) => body_keys (hc_body tc) | _ => [] end
  | None => []
  end.
(** In every out-of-order table no two parts (and no part twice) have a key in common. *)
Definition disjoint_parts (h : heap) : Prop :=
  forall t c m k l, nth_error h t = Some (HTable c m) -> map_get k (hc_map c) = Some (Many l) ->
    NoDup (flat_map (part_keys h c) l).

Definition single_map (m : list (str * cidx)) : Prop := Forall (fun kv => exists i, snd kv = One i) m.
Definition plain_cell (c : cell) : Prop := match c with HTable hc _ => single_map (hc_map hc) | _ => False end.

Lemma list_set_length {A} n (x : A) l : List.length (list_set n x l) = List.length l.
Proof. revert n; induction l; destruct n; simpl; auto. Qed.
Lemma list_set_app {A} (h : list A) n x r : list_set (List.length h + n) x (h ++ r) = h ++ list_set n x r.
Proof. induction h; simpl; auto. f_equal; auto. Qed.
Lemma list_set_last {A} (h : list A) x y : list_set (List.length h) x (h ++ [y]) = h ++ [x].
Proof. rewrite <- (Nat.add_0_r (List.length h)), list_set_app. reflexivity. Qed.
Lemma nth_last {A} (h : list A) y : nth_error (h ++ [y]) (List.length h) = Some y.
Proof. rewrite nth_error_app2 by lia. rewrite Nat.sub_diag. reflexivity. Qed.
Lemma map_set_new k v m : map_get k m = None -> map_set k v m = m ++ [(k, v)].
Proof. induction m as [|[a b] m IH]; simpl; auto. destruct (str_eqb k a); [discriminate|]. intros X. rewrite IH; auto. Qed.
Lemma map_get_app k m m' : map_get k (m ++ m') = match map_get k m with Some x => Some x | None => map_get k m' end.
Proof. induction m as [|[a b] m IH]; simpl; auto. destruct (str_eqb k a); auto. Qed.

(** Reads that never write. *)
Lemma hcell_pure r h : snd (hcell r h) = h.
Proof. unfold hcell. destruct (nth_error h r); reflexivity. Qed.
Ltac hst := unfold hbind, hret, hfail in *.
Lemma h_prev_pure l acc h : snd (h_prev l acc h) = h.
Proof.
  revert acc; induction l as [|[k r] l IH]; intros acc; simpl; [reflexivity|]. hst.
  unfold hcell. destruct (nth_error h r); [apply IH|reflexivity].
Qed.
Lemma h_ends_ws_pure r h : snd (h_ends_ws r h) = h.
Proof.
  unfold h_ends_ws. hst. unfold hcell at 1. destruct (nth_error h r) as [c|]; [|reflexivity].
  destruct c as [i|hc m|]; try reflexivity.
  pose proof (h_prev_pure (hc_body hc) None h) as P. destruct (h_prev (hc_body hc) None h) as [[o|e] h1]; simpl in P; subst h1; [|reflexivity].
  destruct o as [r'|]; [|reflexivity]. unfold hcell. destruct (nth_error h r'); reflexivity.
Qed.

Definition pure {A} (m : H A) : Prop := forall h, snd (m h) = h.
Lemma pure_bind {A B} (m : H A) (f : A -> H B) : pure m -> (forall a, pure (f a)) -> pure (hbind m f).
Proof. intros P Q h. unfold hbind. specialize (P h). destruct (m h) as [[a|e] h1]; simpl in P; subst h1; [apply Q|reflexivity]. Qed.
Lemma pure_ret {A} (a : A) : pure (hret a). Proof. intros h; reflexivity. Qed.
Lemma pure_fail {A} e : pure (@hfail A e). Proof. intros h; reflexivity. Qed.
Lemma pure_cell r : pure (hcell r). Proof. intros h; apply hcell_pure. Qed.
Lemma h_prev_ws_pure body : pure (h_prev_ws body).
Proof.
  apply pure_bind; [intros h; apply h_prev_pure|]. intros [y|]; [|apply pure_ret].
  apply pure_bind; [apply pure_cell|]. intros c. apply pure_bind; [intros h; apply h_ends_ws_pure|]. intros; apply pure_ret.
Qed.
Lemma h_cosmetics_pure f b w dt r it : pure (h_cosmetics f true b w dt r it).
Proof.
  unfold h_cosmetics. destruct it as [| |[|]]; try apply pure_ret.
  - apply pure_bind; [apply pure_ret|]. intros _. apply pure_bind; [apply pure_cell|]. intros x.
    replace (b && negb (true || negb (str_eqb (tr_indent (cell_trivia x)) []) || w) && negb dt)%bool with false; [apply pure_ret|].
    simpl. rewrite Bool.andb_false_r. reflexivity.
  - rewrite Bool.andb_false_r. apply pure_ret.
Qed.
Lemma bind_case {A B} (m : H A) (f : A -> H B) h :
  (exists a h', m h = (Ok a, h') /\ hbind m f h = f a h') \/ (exists e h', m h = (Err e, h') /\ hbind m f h = (Err e, h')).
Proof. unfold hbind. destruct (m h) as [[a|e] h']; [left|right]; eauto. Qed.
Lemma bind_pure {A B} (m : H A) (f : A -> H B) h : pure m ->
  (exists a, m h = (Ok a, h) /\ hbind m f h = f a h) \/ (exists e, hbind m f h = (Err e, h)).
Proof. intros P. specialize (P h). unfold hbind. destruct (m h) as [[a|e] h']; simpl in P; subst h'; eauto. Qed.

(** Appending a new key (or no key) to the internal container of a proxy: an error
    that leaves the heap alone, or one more entry. *)
Definition grown (h0 : heap) body m tks d tm (k : option skey) r (x : res unit * heap) : Prop :=
  (exists e, x = (Err e, h0 ++ [HTable (mkHC body m true tks d) tm])) \/
  exists tks' d', x = (Ok tt, h0 ++ [HTable (mkHC (body ++ [(k, r)]) (match k with Some k' => m ++ [(k_key k', One (List.length body))] | None => m end) true tks' d') tm]).
Lemma h_append_new fuel h0 body m tks d tm k r validate :
  match k with Some k' => map_get (k_key k') m = None | None => True end ->
  grown h0 body m tks d tm k r (h_append fuel (List.length h0) k r validate (h0 ++ [HTable (mkHC body m true tks d) tm])).
Proof.
  intros Hk. set (ic := List.length h0). set (h := h0 ++ [HTable (mkHC body m true tks d) tm]).
  assert (Z : forall e, grown h0 body m tks d tm k r (Err e, h)) by (intros e; left; eexists; reflexivity).
  destruct fuel as [|n]; [apply Z|]. cbn [h_append].
  assert (Hic : nth_error h ic = Some (HTable (mkHC body m true tks d) tm)) by apply nth_last.
  assert (HT : h_table ic h = (Ok (mkHC body m true tks d, tm), h)).
  { unfold h_table, hbind, hcell. rewrite Hic. reflexivity. }
  unfold hbind at 1. rewrite HT.
  match goal with |- context [hbind ?a ?b ?c] => destruct (bind_pure a b c) as [(it & Ei & ->)|(e & ->)]; [apply pure_cell| |apply Z] end.
  match goal with |- context [hbind ?a ?b ?c] => destruct (bind_pure a b c) as [(w & _ & ->)|(e & ->)]; [apply h_prev_ws_pure| |apply Z] end.
  match goal with |- context [hbind ?a ?b ?c] => destruct (bind_pure a b c) as [(u & _ & ->)|(e & ->)]; [apply h_cosmetics_pure| |apply Z] end.
  unfold hbind at 1. rewrite Ei.
  assert (RA : grown h0 body m tks d tm k r (h_raw_append ic k r h)).
  { unfold h_raw_append. unfold hbind at 1. rewrite HT. destruct k as [k'|].
    - unfold hbind. rewrite Ei. rewrite Hk. right. unfold hret, hset. rewrite map_set_new by exact Hk.
      do 2 eexists. unfold ic, h. rewrite list_set_last. reflexivity.
    - right. unfold hset, ic, h. rewrite list_set_last. do 2 eexists. reflexivity. }
  assert (AE : grown h0 body m tks d tm k r (h_append_end ic k r h)).
  { assert (E : h_append_end ic k r h = h_raw_append ic k r h); [|rewrite E; exact RA].
    unfold h_append_end. unfold hbind at 1. rewrite HT. unfold hbind at 1. rewrite Ei. destruct k as [k'|]; [|reflexivity].
    replace (Nat.ltb 0 (List.length body) && negb true && (negb (cell_is_table it || cell_is_aot it) || k_dotted k'))%bool with false; [reflexivity|].
    rewrite Bool.andb_false_r. reflexivity. }
  destruct k as [k'|]; [|exact AE].
  destruct n as [|n']; [apply Z|].
  unfold hbind at 1. cbn [h_contains]. unfold hbind at 1. rewrite HT. cbn [fst hc_map]. rewrite Hk. cbn [hret negb]. exact AE.
Qed.

(** What a proxy under construction looks like: the old heap and the internal
    container, whose keys [ks] all have one index. *)
Definition building (h0 : heap) (ks : list str) (h : heap) : Prop :=
  exists body m tks d tm, h = h0 ++ [HTable (mkHC body m true tks d) tm] /\ single_map m
    /\ (forall k, map_get k m <> None -> In k ks) /\ Forall (fun kv : option skey * nat => snd kv < List.length h0) body.
(** After some steps: still under construction, or an error. *)
Lemma entries_ok n h0 l ks h :
  building h0 ks h -> NoDup (ks ++ body_keys l) -> Forall (fun kv : option skey * nat => snd kv < List.length h0) l ->
  exists res h', hiter (fun kv => h_append n (List.length h0) (fst kv) (snd kv) false) l h = (res, h')
    /\ ((exists e, res = Err e) /\ (exists ks', building h0 ks' h') \/ res = Ok tt /\ building h0 (ks ++ body_keys l) h').
Proof.
  revert ks h; induction l as [|[k r] l IH]; intros ks h B ND F; cbn [hiter].
  - exists (Ok tt), h. split; [reflexivity|]. right. split; auto. simpl. rewrite app_nil_r. exact B.
  - destruct B as (body & m & tks & d & tm & -> & SM & KS & FB). apply Forall_cons_iff in F as [Fr Fl].
    assert (Hk : match k with Some k' => map_get (k_key k') m = None | None => True end).
    { destruct k as [k'|]; auto. destruct (map_get (k_key k') m) eqn:E; auto.
      exfalso. assert (I : In (k_key k') ks) by (apply KS; congruence).
      simpl in ND. apply (NoDup_remove_2 _ _ _ ND). apply in_or_app; left; exact I. }
    pose proof (h_append_new n h0 body m tks d tm k r false Hk) as G. cbn [fst snd]. unfold hbind at 1.
    destruct G as [(e & ->)|(tks' & d' & ->)].
    + do 2 eexists. split; [reflexivity|]. left. split; [eauto|]. exists ks. do 5 eexists. split; [reflexivity|]. auto.
    + destruct (IH (ks ++ body_keys [(k, r)]) (h0 ++ [HTable (mkHC (body ++ [(k, r)]) (match k with Some k' => m ++ [(k_key k', One (List.length body))] | None => m end) true tks' d') tm]))
        as (res & h' & -> & R).
      * do 5 eexists. split; [reflexivity|]. split; [|split].
        -- destruct k as [k'|]; auto. apply Forall_app; split; auto. constructor; auto. simpl; eauto.
        -- intros q. destruct k as [k'|]; simpl; [|rewrite app_nil_r; apply KS].
           rewrite map_get_app. simpl. intros X. apply in_or_app. destruct (map_get q m) eqn:E; [left; apply KS; congruence|].
           destruct (str_eqb q (k_key k')) eqn:Eq; [|congruence]. right. left. symmetry. apply str_eqb_eq. exact Eq.
        -- apply Forall_app; split; auto.
      * rewrite <- app_assoc. unfold body_keys in *. simpl. rewrite app_nil_r. exact ND.
      * exact Fl.
      * do 2 eexists. split; [reflexivity|]. rewrite <- app_assoc in R. unfold body_keys in *. simpl in R. rewrite app_nil_r in R. exact R.
Qed.
Lemma NoDup_app_l {A} (a b : list A) : NoDup (a ++ b) -> NoDup a.
Proof. induction a; simpl; [constructor|]. intros X. inversion X as [|? ? N1 N2]. constructor; [intros I; apply N1, in_or_app; left; exact I|auto]. Qed.
Lemma closed_below h r c : closed h -> nth_error h r = Some c -> refs_below (List.length h) c.
Proof. intros C E. apply nth_error_In in E. apply (proj1 (Forall_forall _ _) C). exact E. Qed.
Lemma nth_app_l {A} (h : list A) x r : r < List.length h -> nth_error (h ++ x) r = nth_error h r.
Proof. intros; apply nth_error_app1; auto. Qed.

Definition proxy_step (n dst ic i : nat) : H unit :=
  x <-- h_table dst;
  match nth_error (hc_body (fst x)) i with
  | Some (_, r) =>
      c <-- hcell r;
      match c with
      | HTable tc _ => hiter (fun kv => h_append n ic (fst kv) (snd kv) false) (hc_body tc)
      | _ => hret tt
      end
  | None => hfail IndexErrorE
  end.
Lemma parts_ok n h0 dst c m : closed h0 -> nth_error h0 dst = Some (HTable c m) ->
  forall l ks h, building h0 ks h -> NoDup (ks ++ flat_map (part_keys h0 c) l) ->
  exists res h', hiter (proxy_step n dst (List.length h0)) l h = (res, h') /\ exists ks', building h0 ks' h'.
Proof.
  intros C D. induction l as [|i l IH]; intros ks h B ND; cbn [hiter].
  - do 2 eexists. split; [reflexivity|]. eauto.
  - unfold hbind at 1.
    assert (S1 : exists res h', proxy_step n dst (List.length h0) i h = (res, h')
        /\ ((exists e, res = Err e) /\ (exists ks', building h0 ks' h') \/ res = Ok tt /\ building h0 (ks ++ part_keys h0 c i) h')).
    { assert (Ld : dst < List.length h0) by (apply nth_error_Some; congruence).
      destruct B as (body & mm & tks & d & tm & Eh & B').
      assert (HB : forall ks', ks' = ks -> building h0 ks' h) by (intros ks' ->; do 5 eexists; eauto).
      assert (Hd : nth_error h dst = Some (HTable c m)) by (rewrite Eh, nth_app_l by exact Ld; exact D).
      unfold proxy_step. unfold hbind at 1. unfold h_table. unfold hbind at 1. unfold hcell at 1. rewrite Hd. cbn [hret fst]. unfold part_keys.
      destruct (nth_error (hc_body c) i) as [[k r]|] eqn:Ei.
      2: { do 2 eexists. split; [reflexivity|]. left. split; eauto. }
      assert (Lr : r < List.length h0).
      { pose proof (closed_below _ _ _ C D) as X. simpl in X. apply nth_error_In in Ei. apply (proj1 (Forall_forall _ _) X) in Ei. exact Ei. }
      assert (Hr : nth_error h r = nth_error h0 r) by (rewrite Eh; apply nth_app_l; exact Lr).
      unfold hbind, hcell. rewrite Hr.
      destruct (nth_error h0 r) as [cr|] eqn:Er; [|apply nth_error_None in Er; lia].
      destruct cr as [it|tc tmm|al an ap at'].
      - do 2 eexists. split; [reflexivity|]. right. split; auto. apply HB. apply app_nil_r.
      - apply entries_ok; [apply HB; reflexivity| |].
        + cbn [flat_map] in ND. unfold part_keys at 1 in ND. rewrite Ei, Er, app_assoc in ND.
          apply NoDup_app_l in ND. exact ND.
        + pose proof (closed_below _ _ _ C Er) as X. exact X.
      - do 2 eexists. split; [reflexivity|]. right. split; auto. apply HB. apply app_nil_r. }
    destruct S1 as (res & h' & -> & [[(e & ->) K]|[-> B1]]).
    + do 2 eexists. split; [reflexivity|]. exact K.
    + apply (IH _ _ B1). cbn [flat_map] in ND. rewrite <- app_assoc. exact ND.
Qed.
Lemma validate_single n ic h body m tks d tm l : nth_error h ic = Some (HTable (mkHC body m true tks d) tm) -> single_map m ->
  snd (hiter (fun kv : str * cidx => h_validate n ic (fst kv)) l h) = h.
Proof.
  intros E SM. induction l as [|[k x] l IH]; cbn [hiter]; [reflexivity|].
  assert (V : snd (h_validate n ic k h) = h).
  { destruct n as [|n]; [reflexivity|]. cbn [h_validate]. unfold h_table, hbind, hcell. rewrite E. cbn [hret fst hc_map].
    destruct (map_get k m) as [[i|ll]|] eqn:G; try reflexivity.
    exfalso. clear -G SM. induction SM as [|[a b] m [i Hi] SM IH]; simpl in G; [discriminate|].
    simpl in Hi. destruct (str_eqb k a); [congruence|auto]. }
  unfold hbind at 1. cbn [fst]. destruct (h_validate n ic k h) as [[u|e] h1]; simpl in V; subst h1; [exact IH|reflexivity].
Qed.
Lemma proxy_ok fuel h0 dst c m l : closed h0 -> nth_error h0 dst = Some (HTable c m) -> NoDup (flat_map (part_keys h0 c) l) ->
  snd (h_proxy fuel dst l h0) = h0 \/ exists ks, building h0 ks (snd (h_proxy fuel dst l h0)).
Proof.
  intros C D ND. destruct fuel as [|n]; [left; reflexivity|]. right. cbn [h_proxy]. unfold hbind at 1. unfold halloc.
  assert (B : building h0 [] (h0 ++ [HTable (mkHC [] [] true [] []) plain_meta])).
  { do 5 eexists. split; [reflexivity|]. split; [constructor|]. split; [|constructor]. intros k X. simpl in X. congruence. }
  destruct (parts_ok n h0 dst c m C D l [] _ B ND) as (res & h' & E & ks & B').
  change (hiter _ l) with (hiter (proxy_step n dst (List.length h0)) l).
  unfold hbind at 1. rewrite E. destruct res as [[]|e]; [|exists ks; exact B'].
  exists ks. destruct B' as (body & mm & tks & d & tm & -> & SM & R).
  set (h := h0 ++ _).
  assert (Hic : nth_error h (List.length h0) = Some (HTable (mkHC body mm true tks d) tm)) by apply nth_last.
  unfold hbind at 1. unfold h_table, hbind at 1. unfold hcell. rewrite Hic. cbn [hret fst hc_map].
  unfold hbind at 1. pose proof (validate_single n _ h body mm tks d tm mm Hic SM) as V.
  destruct (hiter _ mm h) as [[u|e] h1]; simpl in V; subst h1; do 5 eexists; (split; [reflexivity|]); auto.
Qed.

(** Reading keeps the heap: only new cells, each with single indices. *)
Definition good (h : heap) : Prop := closed h /\ disjoint_parts h.
Lemma refs_mono n n' c : n <= n' -> refs_below n c -> refs_below n' c.
Proof. intros L. destruct c; simpl; auto; apply Forall_impl; intros; lia. Qed.
Lemma part_keys_ext h x c i : Forall (fun kv : option skey * nat => snd kv < List.length h) (hc_body c) -> part_keys (h ++ x) c i = part_keys h c i.
Proof.
  intros F. unfold part_keys. destruct (nth_error (hc_body c) i) as [[k r]|] eqn:E; auto.
  rewrite nth_app_l; auto. apply nth_error_In in E. apply (proj1 (Forall_forall _ _) F) in E. exact E.
Qed.
Lemma good_building h ks h' : good h -> building h ks h' -> good h'.
Proof.
  intros [C D] (body & m & tks & d & tm & -> & SM & KS & FB). split.
  - apply Forall_app; split.
    + eapply Forall_impl; [|exact C]. intros c. apply refs_mono. rewrite app_length; lia.
    + constructor; auto. apply (refs_mono (List.length h)); [rewrite app_length; lia|]. exact FB.
  - intros t c mm k l E G. destruct (lt_dec t (List.length h)) as [L|L].
    + rewrite nth_app_l in E by exact L. specialize (D t c mm k l E G).
      erewrite flat_map_ext; [exact D|]. intros i. apply part_keys_ext. exact (closed_below _ _ _ C E).
    + rewrite nth_error_app2 in E by lia. destruct (t - List.length h) as [|[|]]; simpl in E; try discriminate.
      injection E as <- <-. exfalso. cbn [hc_map] in G. clear -G SM.
      induction SM as [|[a b] m [i Hi] SM IH]; simpl in G; [discriminate|].
      simpl in Hi. destruct (str_eqb k a); [congruence|auto].
Qed.
Lemma read_ok fuel o h : good h -> good (snd (h_read fuel o h)) /\ exists x, snd (h_read fuel o h) = h ++ x.
Proof.
  intros Gd.
  assert (Z : good h /\ exists x, h = h ++ x) by (split; [exact Gd|exists []; symmetry; apply app_nil_r]).
  destruct o as [t k|a i]; cbn [h_read].
  - unfold h_get, h_table, hbind, hcell. destruct (nth_error h t) as [[it|c m|al an ap at']|] eqn:E; cbn [hret hfail fst snd]; try exact Z.
    destruct (map_get k (hc_map c)) as [[i|l]|] eqn:G; try exact Z.
    + destruct (nth_error (hc_body c) i) as [[? ?]|]; exact Z.
    + destruct Gd as [C D]. destruct (proxy_ok fuel h t c m l C E (D _ _ _ _ _ E G)) as [->|(ks & B)]; [exact Z|].
      split; [eapply good_building; [split; eassumption|exact B]|].
      destruct B as (body & mm & tks & d & tm & -> & _). eauto.
  - unfold h_nth, hbind, hcell. destruct (nth_error h a) as [[it|c m|al an ap at']|] eqn:E; cbn [hret hfail fst snd]; try exact Z.
    destruct (nth_error al i); exact Z.
Qed.
Lemma reads_ok fuel ops : forall h, good h -> exists x, h_reads fuel ops h = h ++ x.
Proof.
  induction ops as [|o ops IH]; intros h Gd; cbn [h_reads]; [exists []; symmetry; apply app_nil_r|].
  destruct (read_ok fuel o h Gd) as [G1 (x & E)]. rewrite E in *. destruct (IH _ G1) as (y & ->). rewrite <- app_assoc. eauto.
Qed.

(** The tree of an object does not depend on cells added later. *)
Lemma opt_list_ext {A B} (f g : A -> option B) l r : (forall x y, f x = Some y -> g x = Some y) -> opt_list f l = Some r -> opt_list g l = Some r.
Proof.
  intros X. revert r; induction l as [|a l IH]; intros r; simpl; auto.
  destruct (f a) eqn:E; [|discriminate]. rewrite (X _ _ E). destruct (opt_list f l); [|discriminate]. rewrite (IH _ eq_refl). auto.
Qed.
Lemma tree_ext x n : forall h r i, h_tree n h r = Some i -> h_tree n (h ++ x) r = Some i.
Proof.
  induction n as [|n IH]; intros h r i; [discriminate|]. cbn [h_tree].
  destruct (nth_error h r) as [c|] eqn:E; [|discriminate]. rewrite nth_app_l by (apply nth_error_Some; congruence). rewrite E.
  destruct c as [it|c m|l nm p t]; auto.
  - destruct (opt_list _ (hc_body c)) as [b|] eqn:O; [|discriminate]. erewrite opt_list_ext; [| |exact O]; [auto|]. cbv beta. intros y z.
    destruct (h_tree n h (snd y)) eqn:Q; [|discriminate]. rewrite (IH _ _ _ Q). auto.
  - destruct (opt_list _ l) as [b|] eqn:O; [|discriminate]. erewrite opt_list_ext; [| |exact O]; [auto|]. cbv beta. intros y z.
    destruct (h_tree n h y) eqn:Q; [|discriminate]. rewrite (IH _ _ _ Q). auto.
Qed.
Lemma tree_mono n : forall n' h r i, n <= n' -> h_tree n h r = Some i -> h_tree n' h r = Some i.
Proof.
  induction n as [|n IH]; intros n' h r i L; [discriminate|]. destruct n' as [|n']; [lia|]. cbn [h_tree].
  destruct (nth_error h r) as [c|] eqn:E; [|discriminate].
  destruct c as [it|c m|l nm p t]; auto.
  - destruct (opt_list _ (hc_body c)) as [b|] eqn:O; [|discriminate]. erewrite opt_list_ext; [| |exact O]; [auto|]. cbv beta. intros y z.
    destruct (h_tree n h (snd y)) eqn:Q; [|discriminate]. rewrite (IH n' _ _ _ ltac:(lia) Q). auto.
  - destruct (opt_list _ l) as [b|] eqn:O; [|discriminate]. erewrite opt_list_ext; [| |exact O]; [auto|]. cbv beta. intros y z.
    destruct (h_tree n h y) eqn:Q; [|discriminate]. rewrite (IH n' _ _ _ ltac:(lia) Q). auto.
Qed.

(** Loading a tree. *)
Definition loads (i : item) : Prop := forall h, closed h ->
  exists x r, h_load i h = (r, h ++ x) /\ r < List.length (h ++ x) /\ closed (h ++ x) /\ exists n, h_tree n (h ++ x) r = Some i.
Definition loads_cont (c : container) : Prop := forall h, closed h ->
  exists x hc, h_load_cont c h = (hc, h ++ x) /\ closed (h ++ x) /\ refs_below (List.length (h ++ x)) (HTable hc plain_meta)
    /\ (exists n, forall tm h', h' = (h ++ x) ++ [HTable hc tm] -> h_tree (S n) h' (List.length (h ++ x)) = Some (ITable c tm)).
Lemma closed_add h c : closed h -> refs_below (List.length h) c -> closed (h ++ [c]).
Proof.
  intros C R. apply Forall_app; split.
  - eapply Forall_impl; [|exact C]. intros. eapply refs_mono; [|eassumption]. rewrite app_length; lia.
  - constructor; auto. eapply refs_mono; [|exact R]. rewrite app_length; lia.
Qed.
Lemma loads_leaf i h : h_load i h = h_new (HLeaf i) h -> closed h ->
  exists x r, h_load i h = (r, h ++ x) /\ r < List.length (h ++ x) /\ closed (h ++ x) /\ exists n, h_tree n (h ++ x) r = Some i.
Proof.
  intros E C. exists [HLeaf i], (List.length h). rewrite E. split; [reflexivity|]. split; [rewrite app_length; simpl; lia|].
  split; [apply closed_add; simpl; auto|]. exists 1. cbn [h_tree]. rewrite nth_last. reflexivity.
Qed.
Definition load_body := fix go (l : list (option skey * item)) (h : heap) : list (option skey * nat) * heap :=
  match l with
  | [] => ([], h)
  | (k, v) :: l' => let '(r, h) := h_load v h in let '(b, h) := go l' h in ((k, r) :: b, h)
  end.
Lemma load_body_ok body : Forall (fun kv : option skey * item => loads (snd kv)) body -> forall h, closed h ->
  exists x b, load_body body h = (b, h ++ x) /\ closed (h ++ x) /\ Forall (fun kv : option skey * nat => snd kv < List.length (h ++ x)) b
   /\ exists n, opt_list (fun kv : option skey * nat => option_map (fun i => (fst kv, i)) (h_tree n (h ++ x) (snd kv))) b = Some body.
Proof.
  induction 1 as [|[k v] body L F IH]; intros h C; cbn [load_body].
  - exists [], []. rewrite app_nil_r. split; [reflexivity|]. split; [exact C|]. split; [constructor|]. exists 0. reflexivity.
  - destruct (L h C) as (x & r & E & Lr & C1 & n1 & T). cbn [snd] in E. rewrite E.
    destruct (IH (h ++ x) C1) as (y & b & -> & C2 & FB & n2 & O).
    exists (x ++ y), ((k, r) :: b). rewrite app_assoc. split; [reflexivity|]. split; [exact C2|].
    split; [constructor; auto; simpl; rewrite app_length; lia|].
    exists (Nat.max n1 n2). cbn [opt_list fst snd].
    rewrite (tree_mono n1 _ _ _ v (Nat.le_max_l n1 n2) (tree_ext y _ _ _ _ T)). cbn [option_map].
    erewrite opt_list_ext; [| |exact O]; [reflexivity|].
    cbv beta. intros w z. destruct (h_tree n2 _ (snd w)) eqn:Q; [|discriminate]. rewrite (tree_mono n2 (Nat.max n1 n2) _ _ _ (Nat.le_max_r _ _) Q). auto.
Qed.
Definition load_aot := fix go (l : list (container * tmeta)) (h : heap) : list nat * heap :=
  match l with
  | [] => ([], h)
  | (c, m) :: l' =>
      let '(hc, h) := h_load_cont c h in
      let '(r, h) := h_new (HTable hc m) h in
      let '(b, h) := go l' h in (r :: b, h)
  end.
Lemma load_aot_ok l : Forall (fun x => loads_cont (fst x)) l -> forall h, closed h ->
  exists x b, load_aot l h = (b, h ++ x) /\ closed (h ++ x) /\ Forall (fun r => r < List.length (h ++ x)) b
   /\ exists n, opt_list (fun r => match h_tree n (h ++ x) r with Some (ITable c m) => Some (c, m) | _ => None end) b = Some l.
Proof.
  induction 1 as [|[c m] l L F IH]; intros h C; cbn [load_aot].
  - exists [], []. rewrite app_nil_r. split; [reflexivity|]. split; [exact C|]. split; [constructor|]. exists 0. reflexivity.
  - destruct (L h C) as (x & hc & E & C1 & R & n1 & T). cbn [fst] in E. rewrite E. cbn [h_new].
    assert (C1' : closed ((h ++ x) ++ [HTable hc m])) by (apply closed_add; [exact C1|exact R]).
    destruct (IH _ C1') as (y & b & -> & C2 & FB & n2 & O).
    exists ((x ++ [HTable hc m]) ++ y), (List.length (h ++ x) :: b). rewrite !app_assoc. split; [reflexivity|]. split; [exact C2|].
    split; [constructor; auto; rewrite !app_length; simpl; lia|].
    exists (Nat.max (S n1) n2). cbn [opt_list].
    specialize (T m _ eq_refl). rewrite (tree_mono (S n1) _ _ _ _ (Nat.le_max_l (S n1) n2) (tree_ext y _ _ _ _ T)).
    erewrite opt_list_ext; [| |exact O]; [reflexivity|].
    cbv beta. intros w z. destruct (h_tree n2 _ w) eqn:Q; [|discriminate]. rewrite (tree_mono n2 (Nat.max (S n1) n2) _ _ _ (Nat.le_max_r _ _) Q). auto.
Qed.
Lemma load_ok i : loads i.
Proof.
  apply (item_ind2 loads loads_cont); try (intros; intros h C; apply loads_leaf; [reflexivity|exact C]).
  - intros c m L h C. destruct (L h C) as (x & hc & E & C1 & R & n & T). cbn [h_load]. rewrite E. cbn [h_new].
    exists (x ++ [HTable hc m]), (List.length (h ++ x)). rewrite app_assoc. split; [reflexivity|]. split; [rewrite (app_length _ [_]); simpl; lia|].
    split; [apply closed_add; [exact C1|exact R]|]. exists (S n). apply T. reflexivity.
  - intros l nm p t F h C. 
    assert (E : h_load (IAoT l nm p t) h = let '(b, h') := load_aot l h in h_new (HAoT b nm p t) h') by reflexivity. rewrite E. clear E.
    destruct (load_aot_ok l F h C) as (x & b & -> & C1 & FB & n & O). cbn [h_new].
    exists (x ++ [HAoT b nm p t]), (List.length (h ++ x)). rewrite app_assoc. split; [reflexivity|]. split; [rewrite (app_length _ [_]); simpl; lia|].
    split; [apply closed_add; [exact C1|exact FB]|]. exists (S n). cbn [h_tree]. rewrite nth_last.
    erewrite opt_list_ext; [reflexivity| |exact O]. cbv beta. intros y z.
    destruct (h_tree n (h ++ x) y) eqn:Q; [|discriminate]. rewrite (tree_ext _ _ _ _ _ Q). auto.
  - intros body m p tks d F h C. 
    assert (E : h_load_cont (Cont body m p tks d) h = let '(b, h') := load_body body h in (mkHC b m p tks d, h')) by reflexivity. rewrite E. clear E.
    destruct (load_body_ok body F h C) as (x & b & -> & C1 & FB & n & O).
    exists x, (mkHC b m p tks d). split; [reflexivity|]. split; [exact C1|]. split; [exact FB|].
    exists n. intros tm h' ->. cbn [h_tree]. rewrite nth_last. cbn [hc_body hc_map hc_parsed hc_tkeys hc_dict].
    erewrite opt_list_ext; [reflexivity| |exact O]. cbv beta. intros y z.
    destruct (h_tree n (h ++ x) (snd y)) eqn:Q; [|discriminate]. rewrite (tree_ext _ _ _ _ _ Q). auto.
Qed.
Lemma doc_ok c : closed (snd (h_doc c)) /\ exists n, forall n', n <= n' -> h_tree n' (snd (h_doc c)) (fst (h_doc c)) = Some (ITable c plain_meta).
Proof.
  unfold h_doc. destruct (load_ok (ITable c plain_meta) [] (Forall_nil _)) as (x & r & E & L & C & n & T). rewrite E. cbn [fst snd].
  split; [exact C|]. exists n. intros n' Ln. eapply tree_mono; [exact Ln|exact T].
Qed.
Lemma reading fuel ops c : disjoint_parts (snd (h_doc c)) ->
  exists n, forall n', n <= n' -> h_text n' (h_reads fuel ops (snd (h_doc c))) (fst (h_doc c)) = Some (cont_string c).
Proof.
  intros D. destruct (doc_ok c) as [C (n & T)]. exists n. intros n' Ln.
  destruct (reads_ok fuel ops _ (conj C D)) as (x & ->). unfold h_text. rewrite (tree_ext x _ _ _ _ (T n' Ln)). reflexivity.
Qed.
