(** Lemmas about arrays (items.py:1098-1429): the list view, the groups and the
    index map stay together. *)
From Verif Require Import Base Utils Items Container Arrays Lemmas Wf ListSpec.
Open Scope nat_scope.

(** A value in an array: not a Whitespace, Comment or Null item. *)
Definition real (i : item) : Prop := match i with IWs _ _ | IComment _ | INull => False | _ => True end.
Definition vals (l : list aelem) : list item := flat_map (fun e => match e with EVal i => [i] | _ => [] end) l.
Definition elems_real (l : list aelem) : Prop := Forall real (vals l).
(** The values of the groups in rendering order. *)
Definition greal (g : agroup item) : list item := match g_real g with Some v => [v] | None => [] end.
Definition reals (gs : list (agroup item)) : list item := flat_map greal gs.

Lemma real_null i : real i -> is_null i = false.
Proof. destruct i; auto; intros []. Qed.
Lemma real_deco i : real i -> is_deco i = false.
Proof. destruct i; auto; intros []. Qed.
Lemma greal_val ind i c k : real i -> greal (mkGroup ind (Some i) c k) = [i].
Proof. intros H. unfold greal, g_real. cbn [g_value]. rewrite (real_null _ H). reflexivity. Qed.
Lemma Forall_firstn {A} (P : A -> Prop) n l : Forall P l -> Forall P (firstn n l).
Proof. intros H. rewrite <- (firstn_skipn n l), Forall_app in H. apply H. Qed.
Lemma Forall_skipn {A} (P : A -> Prop) n l : Forall P l -> Forall P (skipn n l).
Proof. intros H. rewrite <- (firstn_skipn n l), Forall_app in H. apply H. Qed.
Lemma snoc_case {A} (l : list A) : l = [] \/ exists h y, l = h ++ [y].
Proof. destruct (rev l) as [|y r] eqn:E; [left|right; exists (rev r), y]; rewrite <- (rev_involutive l), E; reflexivity. Qed.
Lemma reals_app a b : reals (a ++ b) = reals a ++ reals b.
Proof. apply flat_map_app. Qed.
Lemma greal_bool g : greal g <> [] -> g_bool g = true.
Proof. destruct g as [[?|] [?|] [?|] [?|]]; try reflexivity. intros H. exfalso. apply H. reflexivity. Qed.
Lemma reals_filter gs : reals (filter g_bool gs) = reals gs.
Proof.
  induction gs as [|g gs IH]; [reflexivity|]. cbn [filter]. unfold reals in *. cbn [flat_map]. rewrite <- IH.
  destruct (g_bool g) eqn:E; [reflexivity|]. destruct (greal g) eqn:G; [reflexivity|].
  rewrite greal_bool in E; [discriminate|]. rewrite G. discriminate.
Qed.
Lemma group_loop_reals l : forall this, elems_real l -> reals (group_loop l this) = greal this ++ vals l.
Proof.
  induction l as [|e l IH]; intros this H; [reflexivity|]. destruct e as [s|t|i]; cbn [group_loop].
  - change (vals (EWs s :: l)) with (vals l). destruct (inb chCOMMA s).
    + rewrite IH by exact H. f_equal. unfold greal, g_real. cbn [g_value]. destruct (g_value this); reflexivity.
    + unfold reals. cbn [flat_map]. fold (reals (group_loop l (mkGroup (Some s) None None None))). rewrite IH by exact H. reflexivity.
  - change (vals (EComment t :: l)) with (vals l). rewrite IH by exact H. f_equal. unfold greal, g_real. cbn [g_value]. destruct (g_value this); reflexivity.
  - change (vals (EVal i :: l)) with (i :: vals l). unfold elems_real in H. change (vals (EVal i :: l)) with (i :: vals l) in H. inversion H as [|? ? Hi Hl]; subst.
    destruct (g_value this) eqn:E.
    + unfold reals. cbn [flat_map]. fold (reals (group_loop l (mkGroup None (Some i) None None))). rewrite IH by exact Hl. rewrite greal_val by exact Hi. reflexivity.
    + rewrite IH by exact Hl. rewrite greal_val by exact Hi. unfold greal, g_real. rewrite E. reflexivity.
Qed.
Lemma group_values_reals l : elems_real l -> reals (group_values l) = vals l.
Proof. intros H. unfold group_values. rewrite reals_filter, group_loop_reals by exact H. reflexivity. Qed.
Lemma elem_vals_map l : elems_real l -> elem_vals l = map LItem (vals l).
Proof.
  unfold elems_real. induction l as [|e l IH]; intros H; [reflexivity|]. destruct e as [s|t|i]; unfold elem_vals, vals in *; cbn [flat_map] in *; try (apply IH; exact H).
  cbn [app] in H. inversion H as [|? ? Hi Hl]; subst. rewrite IH by exact Hl. destruct i; try (destruct Hi); reflexivity.
Qed.

(** The invariant: list view, groups and index map describe the same list. *)
Definition sync (a : arr) (l : list item) : Prop :=
  a_list a = map LItem l /\ reals (a_groups a) = l /\ a_map a = reindex 0 (a_groups a).
Lemma sync_new l : elems_real l -> sync (arr_new l) (vals l).
Proof. intros H. split; [apply elem_vals_map, H|split; [apply group_values_reals, H|reflexivity]]. Qed.
Lemma sync_empty : sync arr_empty [].
Proof. repeat split. Qed.

(** The index map finds the group of each value. *)
Lemma reindex_nth gs : forall i k g, nth_error (reindex i gs) k = Some g ->
  exists g1 x g2 v, gs = g1 ++ x :: g2 /\ g = i + List.length g1 /\ List.length (reals g1) = k /\ g_real x = Some v.
Proof.
  induction gs as [|y gs IH]; intros i k g H; cbn [reindex] in H; [destruct k; discriminate|].
  destruct (g_real y) as [v|] eqn:E.
  - destruct k as [|k]; cbn [nth_error] in H.
    + inversion H; subst. exists [], y, gs, v. cbn. repeat split; auto.
    + apply IH in H as (g1 & x & g2 & w & -> & -> & <- & W). exists (y :: g1), x, g2, w. cbn [List.length app]. repeat split; auto; try lia.
      unfold reals. cbn [flat_map]. unfold greal at 1. rewrite E. reflexivity.
  - apply IH in H as (g1 & x & g2 & w & -> & -> & <- & W). exists (y :: g1), x, g2, w. cbn [List.length app]. repeat split; auto; try lia.
    unfold reals. cbn [flat_map]. unfold greal at 1. rewrite E. reflexivity.
Qed.
Lemma reindex_length gs : forall i, List.length (reindex i gs) = List.length (reals gs).
Proof.
  induction gs as [|y gs IH]; intros i; [reflexivity|]. cbn [reindex]. unfold reals in *. cbn [flat_map]. unfold greal at 1.
  destruct (g_real y); cbn [List.length app]; rewrite IH; reflexivity.
Qed.
Lemma reindex_some gs k : k < List.length (reals gs) ->
  exists g1 x g2 v, nth_error (reindex 0 gs) k = Some (List.length g1) /\ gs = g1 ++ x :: g2 /\ List.length (reals g1) = k /\ g_real x = Some v.
Proof.
  intros H. rewrite <- (reindex_length gs 0) in H. apply nth_error_Some in H. destruct (nth_error (reindex 0 gs) k) as [g|] eqn:E; [|congruence].
  apply reindex_nth in E as (g1 & x & g2 & v & -> & -> & <- & W). exists g1, x, g2, v. auto.
Qed.

Lemma list_insert_app {A} (x : A) a b : list_insert (List.length a) x (a ++ b) = a ++ x :: b.
Proof. unfold list_insert. rewrite firstn_app, Nat.sub_diag, firstn_all, app_nil_r. rewrite skipn_app, Nat.sub_diag, skipn_all. reflexivity. Qed.
Lemma list_set_app {A} (x y : A) a b : list_set (List.length a) y (a ++ x :: b) = a ++ y :: b.
Proof. induction a as [|z a IH]; cbn [List.length app list_set]; [reflexivity|]. rewrite IH. reflexivity. Qed.
Lemma list_del_app {A} (x : A) a b : list_del (List.length a) (a ++ x :: b) = a ++ b.
Proof.
  unfold list_del. rewrite firstn_app, Nat.sub_diag, firstn_all. cbn [firstn]. rewrite app_nil_r. f_equal.
  induction a as [|z a IH]; [reflexivity|]. cbn [List.length app skipn] in *. exact IH.
Qed.
Lemma nth_mid {A} (x : A) a b : nth_error (a ++ x :: b) (List.length a) = Some x.
Proof. induction a; cbn; auto. Qed.
Lemma reals_cons g gs : reals (g :: gs) = greal g ++ reals gs.
Proof. reflexivity. Qed.
Lemma greal_comma c g : greal (set_comma c g) = greal g.
Proof. destruct g; reflexivity. Qed.
Lemma greal_indent c g : greal (set_gindent c g) = greal g.
Proof. destruct g; reflexivity. Qed.
Lemma reals_set_same gs : forall i g g', nth_error gs i = Some g -> greal g' = greal g -> reals (list_set i g' gs) = reals gs.
Proof.
  induction gs as [|y gs IH]; intros [|i] g g' H E; cbn [nth_error list_set] in *; try discriminate.
  - inversion H; subst. rewrite !reals_cons, E. reflexivity.
  - rewrite !reals_cons. erewrite IH; eauto.
Qed.
Lemma is_ws_real g : g_is_ws g = true -> greal g = [].
Proof. destruct g as [? [?|] ? [?|]]; try discriminate; reflexivity. Qed.

(** [insert] in two steps: where, and with what decoration. *)
Definition ins_place (a : arr) (pos0 : Z) : res (nat * bool * bool) :=
  let length := List.length (a_list a) in
  let gs := a_groups a in
  let pos := (if (pos0 <? 0)%Z then (if (pos0 + Z.of_nat length <? 0)%Z then 0 else pos0 + Z.of_nat length) else pos0)%Z in
  if (pos <? Z.of_nat length)%Z then
    match nth_error (a_map a) (Z.to_nat pos) with Some i => Ok (i, false, true) | None => Err IndexErrorE end
  else
    match List.length gs with
    | O => Ok (O, false, false)
    | S i => match nth_error gs i with
             | Some g => if g_is_ws g then Ok (i, match g_indent g with Some s => inb chLF s | None => false end, false)
                         else Ok (S i, false, false)
             | None => Ok (S i, false, false)
             end
    end.
Definition ins_groups (gs : list (agroup item)) (idx : nat) (dnl inside : bool) (it : item) : list (agroup item) :=
  let indent := match nth_error gs idx with Some g => if g_is_ws g then None else g_indent g | None => None end in
  let comma := if inside then Some [chCOMMA] else None in
  let '(indent, comma, gs) :=
    match idx with
    | O => (indent, comma, gs)
    | S i =>
        match nth_error gs i with
        | None => (indent, comma, gs)
        | Some lst =>
            (match indent with None => g_indent lst | Some _ => indent end,
             if negb (g_null lst) && dnl then g_comma lst else comma,
             match g_comma lst with
             | None => if negb (g_null lst) then list_set i (set_comma (Some [chCOMMA]) lst) gs else gs
             | Some _ => gs
             end)
        end
    end in
  let indent := match indent with
                | None => if Nat.ltb 0 idx || dnl then Some (if dnl then chLF :: L "    " else L " ") else None
                | Some _ => indent
                end in
  list_insert idx (mkGroup indent (Some it) comma None) gs.
Lemma arr_insert_eq a pos it : arr_insert a pos it =
  let* (idx, dnl, inside) := ins_place a pos in
  let gs' := ins_groups (a_groups a) idx dnl inside it in
  Ok (mkArr (if is_deco it then a_list a else list_insert (py_pos (List.length (a_list a)) pos) (LItem it) (a_list a)) gs' (reindex 0 gs')).
Proof.
  destruct a as [l gs m]. unfold arr_insert, ins_place, ins_groups. cbn [a_list a_groups a_map].
  set (pos' := (if (pos <? 0)%Z then _ else _)%Z). destruct (pos' <? Z.of_nat (List.length l))%Z.
  - destruct (nth_error m (Z.to_nat pos')) as [i|]; [|reflexivity]. cbn [rbind].
    destruct i as [|i]; [reflexivity|]. destruct (nth_error gs i); reflexivity.
  - destruct (List.length gs) as [|i] eqn:E.
    + cbn [rbind]. reflexivity.
    + destruct (nth_error gs i) as [g|] eqn:En; [destruct (g_is_ws g)|].
      * cbn [rbind]. destruct i as [|i]; [reflexivity|]. destruct (nth_error gs i); reflexivity.
      * cbn [rbind]. rewrite En. reflexivity.
      * cbn [rbind]. rewrite En. reflexivity.
Qed.

Lemma py_pos_spec n pos : py_pos n pos = py_insert_pos n pos.
Proof.
  unfold py_pos, py_insert_pos. set (p := if (pos <? 0)%Z then (pos + Z.of_nat n)%Z else pos).
  destruct (p <? 0)%Z eqn:E1; [apply Z.ltb_lt in E1; lia|]. apply Z.ltb_ge in E1.
  destruct (Z.of_nat n <=? p)%Z eqn:E2; [apply Z.leb_le in E2|apply Z.leb_gt in E2]; lia.
Qed.
(** The chosen group position matches the list position. *)
Definition splits_at (gs : list (agroup item)) (idx k : nat) : Prop :=
  exists g1 g2, gs = g1 ++ g2 /\ List.length g1 = idx /\ List.length (reals g1) = k.
Lemma ins_place_ok a l pos : sync a l -> exists idx dnl inside, ins_place a pos = Ok (idx, dnl, inside)
  /\ splits_at (a_groups a) idx (py_insert_pos (List.length l) pos)
  /\ (inside = true -> dnl = false /\ exists g1 x g2 v, a_groups a = g1 ++ x :: g2 /\ idx = List.length g1 /\ g_real x = Some v)
  /\ (inside = false -> py_insert_pos (List.length l) pos = List.length l /\
        ((idx = List.length (a_groups a) /\ dnl = false /\ (forall g0 g, a_groups a = g0 ++ [g] -> g_is_ws g = false))
         \/ exists g0 g, a_groups a = g0 ++ [g] /\ idx = List.length g0 /\ g_is_ws g = true /\ dnl = match g_indent g with Some s => inb chLF s | None => false end)).
Proof.
  intros (Hl & Hr & Hm). unfold ins_place. rewrite Hl, map_length, Hm.
  set (pos' := (if (pos <? 0)%Z then _ else _)%Z).
  assert (P : py_insert_pos (List.length l) pos = Nat.min (List.length l) (Z.to_nat pos') /\ (0 <= pos')%Z).
  { unfold pos', py_insert_pos. destruct (pos <? 0)%Z eqn:E1; [destruct (pos + Z.of_nat (List.length l) <? 0)%Z eqn:E2|]; lia. }
  destruct P as [-> P0]. destruct (pos' <? Z.of_nat (List.length l))%Z eqn:E.
  - apply Z.ltb_lt in E. destruct (reindex_some (a_groups a) (Z.to_nat pos')) as (g1 & x & g2 & v & -> & -> & K & V); [rewrite Hr; lia|].
    exists (List.length g1), false, true. split; [reflexivity|]. split; [|split].
    + exists g1, (x :: g2). repeat split. lia.
    + intros _. split; [reflexivity|]. exists g1, x, g2, v. auto.
    + discriminate.
  - apply Z.ltb_ge in E. rewrite (Nat.min_l (List.length l) (Z.to_nat pos')) by lia. destruct (snoc_case (a_groups a)) as [Eg|(gs & y & Eg)]; rewrite Eg in *.
    + cbn [List.length]. exists 0, false, false. split; [reflexivity|]. split; [|split; [discriminate|]].
      * exists [], []. repeat split. rewrite <- Hr. reflexivity.
      * intros _. split; [reflexivity|]. left. repeat split. intros [|? ?] g H; discriminate.
    + rewrite app_length, Nat.add_1_r. rewrite nth_mid. destruct (g_is_ws y) eqn:W.
      * exists (List.length gs), (match g_indent y with Some s => inb chLF s | None => false end), false. split; [reflexivity|]. split; [|split; [discriminate|]].
        -- exists gs, [y]. repeat split. rewrite <- Hr, reals_app. cbn [reals flat_map]. rewrite (is_ws_real _ W), !app_nil_r. reflexivity.
        -- intros _. split; [reflexivity|]. right. exists gs, y. auto.
      * exists (S (List.length gs)), false, false. split; [reflexivity|]. split; [|split; [discriminate|]].
        -- exists (gs ++ [y]), []. rewrite app_nil_r, app_length, Nat.add_1_r, Hr. repeat split.
        -- intros _. split; [reflexivity|]. left. repeat split. intros g0 g H. apply app_inj_tail in H as [_ <-]. exact W.
Qed.
Lemma ins_groups_shape gs idx dnl inside it g1 g2 : gs = g1 ++ g2 -> List.length g1 = idx ->
  exists ind com g1', ins_groups gs idx dnl inside it = g1' ++ mkGroup ind (Some it) com None :: g2 /\ reals g1' = reals g1 /\
    (g1' = g1 \/ exists h y, g1 = h ++ [y] /\ g1' = h ++ [set_comma (Some [chCOMMA]) y]).
Proof.
  intros -> <-. unfold ins_groups. destruct (snoc_case g1) as [->|(h & y & ->)].
  - cbn [List.length]. eexists _, _, []. split; [|split; [reflexivity|left; reflexivity]]. unfold list_insert. cbn [firstn skipn app]. reflexivity.
  - rewrite app_length, Nat.add_1_r. rewrite <- (app_assoc h [y] g2). cbn [app]. rewrite nth_mid.
    destruct (g_comma y) as [cm|]; [|destruct (negb (g_null y)) eqn:En].
    + eexists _, _, (h ++ [y]). split; [|split; [reflexivity|left; reflexivity]].
      replace (S (List.length h)) with (List.length (h ++ [y])) by (rewrite app_length; cbn; lia).
      replace (h ++ y :: g2) with ((h ++ [y]) ++ g2) by (rewrite <- app_assoc; reflexivity). apply list_insert_app.
    + rewrite list_set_app. eexists _, _, (h ++ [set_comma (Some [chCOMMA]) y]). split; [|split].
      * replace (S (List.length h)) with (List.length (h ++ [set_comma (Some [chCOMMA]) y])) by (rewrite app_length; cbn; lia).
        replace (h ++ set_comma (Some [chCOMMA]) y :: g2) with ((h ++ [set_comma (Some [chCOMMA]) y]) ++ g2) by (rewrite <- app_assoc; reflexivity). apply list_insert_app.
      * rewrite !reals_app, !reals_cons, greal_comma. reflexivity.
      * right. exists h, y. auto.
    + eexists _, _, (h ++ [y]). split; [|split; [reflexivity|left; reflexivity]].
      replace (S (List.length h)) with (List.length (h ++ [y])) by (rewrite app_length; cbn; lia).
      replace (h ++ y :: g2) with ((h ++ [y]) ++ g2) by (rewrite <- app_assoc; reflexivity). apply list_insert_app.
Qed.
Lemma insert_sync a l pos it : sync a l -> real it ->
  exists a', arr_insert a pos it = Ok a' /\ sync a' (firstn (py_insert_pos (List.length l) pos) l ++ it :: skipn (py_insert_pos (List.length l) pos) l).
Proof.
  intros H R. destruct (ins_place_ok a l pos H) as (idx & dnl & inside & Hp & (g1 & g2 & Eg & Eidx & Ek) & _ & _).
  rewrite arr_insert_eq, Hp. cbn [rbind]. eexists. split; [reflexivity|]. destruct H as (Hl & Hr & Hm).
  rewrite (real_deco _ R). split; [|split; [|reflexivity]]; cbn [a_list a_groups].
  - rewrite Hl, map_length, py_pos_spec. unfold list_insert. rewrite map_app, firstn_map. cbn [map]. rewrite skipn_map. reflexivity.
  - destruct (ins_groups_shape (a_groups a) idx dnl inside it g1 g2 Eg Eidx) as (ind & com & g1' & -> & E1 & _).
    rewrite reals_app, reals_cons, greal_val by exact R. cbn [app]. rewrite E1.
    assert (L : l = reals g1 ++ reals g2) by (rewrite <- Hr, Eg, reals_app; reflexivity).
    rewrite <- Ek, L. rewrite firstn_app, Nat.sub_diag, firstn_all, skipn_app, Nat.sub_diag, skipn_all. cbn [firstn skipn app]. rewrite app_nil_r. reflexivity.
Qed.
Lemma append_sync a l it : sync a l -> real it -> exists a', arr_append a it = Ok a' /\ sync a' (l ++ [it]).
Proof.
  intros H R. unfold arr_append. destruct (insert_sync a l (Z.of_nat (List.length (a_list a))) it H R) as (a' & -> & S). exists a'. split; [reflexivity|].
  destruct H as (Hl & _). rewrite Hl, map_length in S. replace (py_insert_pos (List.length l) (Z.of_nat (List.length l))) with (List.length l) in S by (unfold py_insert_pos; destruct (_ <? 0)%Z eqn:E; lia).
  rewrite firstn_all, skipn_all in S. exact S.
Qed.
Lemma extend_sync xs : forall a l, sync a l -> Forall real xs -> exists a', arr_extend a xs = Ok a' /\ sync a' (l ++ xs).
Proof.
  induction xs as [|x xs IH]; intros a l H R; cbn [arr_extend]; [exists a; rewrite app_nil_r; auto|].
  inversion R; subst. destruct (append_sync a l x H) as (a1 & -> & S1); [assumption|]. cbn [rbind].
  destruct (IH a1 _ S1) as (a2 & -> & S2); [assumption|]. exists a2. rewrite <- app_assoc in S2. auto.
Qed.

Lemma reals_del_group idx gs : reals (del_group idx gs) = reals (list_del idx gs).
Proof.
  unfold del_group. destruct idx; [|reflexivity]. destruct (list_del 0 gs) as [|g r]; [reflexivity|].
  destruct (g_indent g) as [s|]; [|reflexivity]. destruct (inb chLF s); [reflexivity|]. rewrite !reals_cons, greal_indent. reflexivity.
Qed.
Lemma reals_drop gs : reals (drop_last_comma gs) = reals gs.
Proof.
  unfold drop_last_comma. destruct (List.length gs) as [|i]; [reflexivity|]. destruct (nth_error gs i) as [g|] eqn:E; [|reflexivity].
  destruct (g_is_ws g); [reflexivity|]. eapply reals_set_same; [exact E|]. apply greal_comma.
Qed.
Lemma py_index_bound n i : match py_index n i with
  | None => ((i <? - Z.of_nat n) || (Z.of_nat n <=? i))%Z = true
  | Some p => ((i <? - Z.of_nat n) || (Z.of_nat n <=? i))%Z = false /\ p < n /\ Z.to_nat (if (i <? 0)%Z then Z.of_nat n + i else i)%Z = p
              /\ (0 <= (if (i <? 0)%Z then Z.of_nat n + i else i))%Z
  end.
Proof.
  unfold py_index. destruct ((i <? - Z.of_nat n) || (Z.of_nat n <=? i))%Z eqn:E; [reflexivity|]. apply orb_false_iff in E as [E1 E2].
  apply Z.ltb_ge in E1. apply Z.leb_gt in E2. split; [reflexivity|]. destruct (i <? 0)%Z eqn:E3; [apply Z.ltb_lt in E3|apply Z.ltb_ge in E3]; repeat split; lia.
Qed.
Lemma map_split {A} (l : list A) g1 x g2 (r1 : list A) k : l = g1 ++ x :: g2 -> List.length g1 = k ->
  firstn k l = g1 /\ skipn (S k) l = g2.
Proof.
  intros -> <-. split.
  - rewrite firstn_app, Nat.sub_diag, firstn_all. cbn [firstn]. apply app_nil_r.
  - induction g1; cbn [List.length app skipn] in *; auto.
Qed.
Lemma del_sync a l i : sync a l ->
  match py_index (List.length l) i with
  | Some p => exists a', arr_del a i = Ok a' /\ sync a' (firstn p l ++ skipn (S p) l)
  | None => arr_del a i = Err IndexErrorE
  end.
Proof.
  intros (Hl & Hr & Hm). destruct a as [al gs m]. cbn [a_list a_groups a_map] in *. unfold arr_del. rewrite Hl, map_length.
  pose proof (py_index_bound (List.length l) i) as B. destruct (py_index (List.length l) i) as [p|]; [|rewrite B; reflexivity].
  destruct B as (-> & Bp & Bz & B0). cbn [del_loop]. rewrite (proj2 (Z.ltb_ge _ _) B0). rewrite Bz, Hm.
  destruct (reindex_some gs p) as (g1 & x & g2 & v & -> & -> & K & V); [rewrite Hr; exact Bp|]. cbn [rbind].
  eexists. split; [reflexivity|]. split; [|split; [|reflexivity]]; cbn [a_list a_groups].
  - unfold list_del. rewrite map_app, firstn_map, skipn_map. reflexivity.
  - rewrite reals_drop, reals_del_group, list_del_app. rewrite reals_app in *. rewrite reals_cons in Hr. unfold greal in Hr. rewrite V in Hr. cbn [app] in Hr.
    destruct (map_split l (reals g1) v (reals g2) [] p) as [-> ->]; auto.
Qed.
Lemma set_sync a l i it : sync a l -> real it ->
  match py_index (List.length l) i with
  | Some p => exists a', arr_set a i it = Ok a' /\ sync a' (firstn p l ++ it :: skipn (S p) l)
  | None => arr_set a i it = Err IndexErrorE
  end.
Proof.
  intros (Hl & Hr & Hm) R. destruct a as [al gs m]. cbn [a_list a_groups a_map] in *. unfold arr_set. rewrite Hl, map_length.
  pose proof (py_index_bound (List.length l) i) as B. destruct (py_index (List.length l) i) as [p|]; [|rewrite B; reflexivity].
  destruct B as (-> & Bp & -> & B0). rewrite Hm.
  destruct (reindex_some gs p) as (g1 & x & g2 & v & -> & -> & K & V); [rewrite Hr; exact Bp|]. rewrite nth_mid.
  assert (Q : list_set (List.length g1) (set_gvalue (Some it) x) (g1 ++ x :: g2) = g1 ++ set_gvalue (Some it) x :: g2) by apply list_set_app.
  assert (Gx : greal (set_gvalue (Some it) x) = [it]) by (destruct x; apply greal_val, R).
  rewrite reals_app, reals_cons in Hr. unfold greal in Hr at 1. rewrite V in Hr. cbn [app] in Hr.
  assert (L : firstn p l = reals g1 /\ skipn (S p) l = reals g2) by (apply (map_split l (reals g1) v (reals g2) [] p); auto). destruct L as [L1 L2].
  eexists. split; [reflexivity|]. split; [|split]; cbn [a_list a_groups a_map].
  - rewrite map_app. cbn [map]. rewrite L1, L2. rewrite <- Hr, map_app. cbn [map]. rewrite <- K, <- (map_length LItem (reals g1)). apply list_set_app.
  - rewrite Q, reals_app, reals_cons, Gx, L1, L2. reflexivity.
  - rewrite Q. clear -V Gx. assert (G' : exists w, g_real (set_gvalue (Some it) x) = Some w) by (revert Gx; unfold greal; destruct (g_real (set_gvalue (Some it) x)); [eauto|discriminate]). destruct G' as [w G'].
    generalize 0. induction g1 as [|y g1 IH]; intros n; cbn [app reindex].
    + rewrite V, G'. reflexivity.
    + destruct (g_real y); [f_equal|]; apply IH.
Qed.
Lemma get_sync a l i : sync a l ->
  match py_index (List.length l) i with
  | Some p => exists v, nth_error l p = Some v /\ arr_get a i = Ok v
  | None => arr_get a i = Err IndexErrorE
  end.
Proof.
  intros (Hl & _). unfold arr_get. rewrite Hl, map_length.
  pose proof (py_index_bound (List.length l) i) as B. destruct (py_index (List.length l) i) as [p|]; [|rewrite B; reflexivity].
  destruct B as (-> & Bp & -> & B0). rewrite nth_error_map. destruct (nth_error l p) as [v|] eqn:E; [exists v; auto|]. apply nth_error_None in E. lia.
Qed.
Lemma set_nat a l p v w : sync a l -> real w -> nth_error l p = Some v -> exists a', arr_set a (Z.of_nat p) w = Ok a' /\ sync a' (firstn p l ++ w :: skipn (S p) l).
Proof.
  intros S R H. assert (p < List.length l) by (apply nth_error_Some; congruence). pose proof (set_sync a l (Z.of_nat p) w S R) as X.
  unfold py_index in X. destruct ((_ <? _) || (_ <=? _))%Z eqn:E; [apply orb_true_iff in E as [E|E]; lia|].
  destruct (Z.of_nat p <? 0)%Z eqn:E2; [lia|]. rewrite Nat2Z.id in X. exact X.
Qed.
Lemma get_nat a l p v : sync a l -> nth_error l p = Some v -> arr_get a (Z.of_nat p) = Ok v.
Proof.
  intros S H. assert (p < List.length l) by (apply nth_error_Some; congruence). pose proof (get_sync a l (Z.of_nat p) S) as X.
  unfold py_index in X. destruct ((_ <? _) || (_ <=? _))%Z eqn:E; [apply orb_true_iff in E as [E|E]; lia|].
  destruct (Z.of_nat p <? 0)%Z eqn:E2; [lia|]. rewrite Nat2Z.id in X. destruct X as (w & W & ->). congruence.
Qed.
(** Swapping from the outside in reverses. *)
Lemma swaps_sync k : forall a pre mid post, sync a (pre ++ mid ++ post) -> Forall real (pre ++ mid ++ post) ->
  List.length pre = List.length post -> k = Nat.div2 (List.length mid) ->
  exists a', arr_swaps k (List.length pre) (List.length (pre ++ mid ++ post)) a = Ok a' /\ sync a' (pre ++ rev mid ++ post).
Proof.
  induction k as [|k IH]; intros a pre mid post S R E K; cbn [arr_swaps].
  - exists a. split; [reflexivity|]. destruct mid as [|x [|y mid]]; [exact S|exact S|discriminate].
  - destruct mid as [|x mid']; [discriminate|]. destruct (snoc_case mid') as [->|(mid & y & ->)]; [discriminate|].
    assert (K' : k = Nat.div2 (List.length mid)).
    { cbn [List.length] in K. rewrite app_length, Nat.add_1_r in K. cbn [Nat.div2] in K. lia. }
    set (n := List.length (pre ++ (x :: mid ++ [y]) ++ post)).
    assert (N : n - List.length pre - 1 = List.length (pre ++ x :: mid)).
    { unfold n. repeat (rewrite ?app_length; cbn [List.length]). lia. }
    assert (L : pre ++ (x :: mid ++ [y]) ++ post = (pre ++ x :: mid) ++ y :: post) by (repeat (rewrite <- ?app_assoc; cbn [app]); reflexivity).
    rewrite N. rewrite (get_nat a _ (List.length (pre ++ x :: mid)) y S) by (rewrite L; apply nth_mid).
    cbn [rbind]. rewrite (get_nat a _ (List.length pre) x S) by apply nth_mid. cbn [rbind].
    assert (Rx : real x /\ real y) by (rewrite !Forall_app in R; cbn [app] in R; destruct R as (_ & R & _); inversion R as [|? ? ? R2]; subst; rewrite Forall_app in R2; destruct R2 as [_ R2]; inversion R2; auto). destruct Rx as [Rx Ry].
    destruct (set_nat a _ (List.length pre) x y S Ry) as (a1 & -> & S1); [apply nth_mid|]. cbn [rbind].
    destruct (map_split (pre ++ (x :: mid ++ [y]) ++ post) pre x (mid ++ [y] ++ post) [] (List.length pre)) as [F1 F2]; [cbn [app]; rewrite <- app_assoc; reflexivity|reflexivity|].
    rewrite F1, F2 in S1. 
    assert (L1 : pre ++ y :: mid ++ [y] ++ post = (pre ++ y :: mid) ++ y :: post) by (repeat (rewrite <- ?app_assoc; cbn [app]); reflexivity).
    assert (N1 : List.length (pre ++ x :: mid) = List.length (pre ++ y :: mid)) by (rewrite !app_length; reflexivity).
    rewrite N1. destruct (set_nat a1 _ (List.length (pre ++ y :: mid)) y x S1 Rx) as (a2 & -> & S2); [rewrite L1; apply nth_mid|]. cbn [rbind].
    destruct (map_split (pre ++ y :: mid ++ [y] ++ post) (pre ++ y :: mid) y post [] (List.length (pre ++ y :: mid))) as [F3 F4]; [exact L1|reflexivity|].
    rewrite F3, F4 in S2.
    assert (L2 : (pre ++ y :: mid) ++ x :: post = (pre ++ [y]) ++ mid ++ (x :: post)) by (repeat (rewrite <- ?app_assoc; cbn [app]); reflexivity). rewrite L2 in S2.
    destruct (IH a2 (pre ++ [y]) mid (x :: post) S2) as (a3 & Ea & S3); [|rewrite app_length; cbn [List.length]; lia|exact K'|].
    { rewrite !Forall_app in *. cbn [app] in R. destruct R as (R1 & R2 & R3). inversion R2 as [|? ? _ R4]; subst. rewrite Forall_app in R4. destruct R4. repeat split; auto. }
    assert (N2 : List.length ((pre ++ [y]) ++ mid ++ x :: post) = n) by (unfold n; repeat (rewrite ?app_length; cbn [List.length]); lia).
    rewrite N2 in Ea. replace (List.length (pre ++ [y])) with (Datatypes.S (List.length pre)) in Ea by (rewrite app_length; cbn; lia).
    exists a3. split; [exact Ea|]. replace (rev (x :: mid ++ [y])) with (y :: rev mid ++ [x]) by (cbn [rev]; rewrite rev_app_distr; reflexivity).
    repeat (rewrite <- ?app_assoc in S3; cbn [app] in S3). repeat (rewrite <- ?app_assoc; cbn [app]). exact S3.
Qed.
Lemma reverse_sync a l : sync a l -> Forall real l -> exists a', arr_reverse a = Ok a' /\ sync a' (rev l).
Proof.
  intros S R. unfold arr_reverse. assert (E : List.length (a_list a) = List.length l) by (destruct S as (-> & _); apply map_length). rewrite E.
  destruct (swaps_sync (Nat.div2 (List.length l)) a [] l []) as (a' & Ha & Sa); rewrite ?app_nil_r; auto. cbn [app List.length] in *. rewrite app_nil_r in *. eauto.
Qed.

(** The array operations as the operations of a list. *)
Definition arr_step (a : arr) (o : lop item) : res arr :=
  match o with
  | LAppend x => arr_append a x
  | LExtend xs => arr_extend a xs
  | LInsert i x => arr_insert a i x
  | LSet i x => arr_set a i x
  | LDel i => arr_del a i
  | LPop i => let* (_, a') := arr_pop a i in Ok a'
  | LClear => Ok (arr_clear a)
  | LReverse => arr_reverse a
  end.
Fixpoint arr_run (a : arr) (os : list (lop item)) : arr :=
  match os with
  | [] => a
  | o :: os' => arr_run (match arr_step a o with Ok a' => a' | Err _ => a end) os'
  end.
Lemma step_sync a l o : sync a l -> Forall real l -> Forall real (lop_values o) ->
  match lstep l o with
  | Some l' => exists a', arr_step a o = Ok a' /\ sync a' l' /\ Forall real l'
  | None => arr_step a o = Err IndexErrorE
  end.
Proof.
  intros S R V. destruct o as [x|xs|i x|i x|i|i| |]; cbn [lstep arr_step lop_values] in *.
  - inversion V; subst. destruct (append_sync a l x S) as (a' & -> & S'); auto. exists a'. repeat split; auto; try apply S'. apply Forall_app; auto.
  - destruct (extend_sync xs a l S V) as (a' & -> & S'). exists a'. split; [reflexivity|]. split; [exact S'|]. apply Forall_app; auto.
  - inversion V; subst. destruct (insert_sync a l i x S) as (a' & -> & S'); auto. exists a'. split; [reflexivity|]. split; [exact S'|].
    apply Forall_app. split; [apply Forall_firstn, R|constructor; [assumption|apply Forall_skipn, R]].
  - inversion V; subst. pose proof (set_sync a l i x S) as X. destruct (py_index _ _) as [p|]; cbn [option_map]; [|apply X; assumption].
    destruct X as (a' & -> & S'); [assumption|]. exists a'. split; [reflexivity|]. split; [exact S'|].
    apply Forall_app. split; [apply Forall_firstn, R|constructor; [assumption|apply Forall_skipn, R]].
  - pose proof (del_sync a l i S) as X. destruct (py_index _ _) as [p|]; cbn [option_map]; [|exact X].
    destruct X as (a' & -> & S'). exists a'. split; [reflexivity|]. split; [exact S'|]. apply Forall_app. split; [apply Forall_firstn, R|apply Forall_skipn, R].
  - unfold arr_pop. pose proof (get_sync a l i S) as G. pose proof (del_sync a l i S) as X. destruct (py_index _ _) as [p|]; cbn [option_map].
    + destruct G as (v & _ & ->). cbn [rbind]. destruct X as (a' & -> & S'). cbn [rbind]. exists a'. split; [reflexivity|]. split; [exact S'|]. apply Forall_app. split; [apply Forall_firstn, R|apply Forall_skipn, R].
    + rewrite G. reflexivity.
  - exists (arr_clear a). repeat split. constructor.
  - destruct (reverse_sync a l S R) as (a' & -> & S'). exists a'. split; [reflexivity|]. split; [exact S'|]. apply Forall_rev, R.
Qed.
Lemma run_sync os : forall a l, sync a l -> Forall real l -> Forall (fun o => Forall real (lop_values o)) os ->
  sync (arr_run a os) (lrun l os) /\ Forall real (lrun l os).
Proof.
  induction os as [|o os IH]; intros a l S R V; cbn [arr_run lrun]; [auto|]. inversion V; subst.
  pose proof (step_sync a l o S R) as X. destruct (lstep l o) as [l'|].
  - destruct X as (a' & -> & S' & R'); [assumption|]. apply IH; auto.
  - rewrite X by assumption. apply IH; auto.
Qed.
