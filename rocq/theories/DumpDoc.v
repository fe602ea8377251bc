(** DumpDoc: reading back the tables [dumps] writes. *)
From Verif Require Import Base Source Utils Items Container Arrays Parser Api Lemmas Escape Strings StringRT StringApi Numbers Floats Dates Keys Reader Consist OMap ContOps Wf Mono ListSpec ArrayLemmas ItemInd PyVal PyItem ItemConv DumpText DumpCont DumpValue DumpHead DumpChain.
From Coq Require Import ZifyBool ZifyNat ZifyN Permutation.
Open Scope nat_scope.

(** * Fuel *)
Lemma ptable_up {sf} n n' pa pt stk st a st' : n <= n' -> parse_table sf n pa pt stk st = (Ok a, st') -> parse_table sf n' pa pt stk st = (Ok a, st').
Proof. intros H. apply mle_up, (proj1 (mle_tables false n n' sf sf H (or_introl eq_refl))). Qed.
Lemma tloop_up {sf} n n' f stk c st a st' : n <= n' -> table_loop sf n f stk c st = (Ok a, st') -> table_loop sf n' f stk c st = (Ok a, st').
Proof. intros H. apply mle_up, (proj1 (proj2 (mle_tables false n n' sf sf H (or_introl eq_refl)))). Qed.
Lemma sibs_up {sf} n n' f stk c st a st' : n <= n' -> siblings sf n f stk c st = (Ok a, st') -> siblings sf n' f stk c st = (Ok a, st').
Proof. intros H. apply mle_up, (proj1 (proj2 (proj2 (mle_tables false n n' sf sf H (or_introl eq_refl))))). Qed.
Lemma paot_up {sf} n n' fst0 nm stk st a st' : n <= n' -> parse_aot sf n fst0 nm stk st = (Ok a, st') -> parse_aot sf n' fst0 nm stk st = (Ok a, st').
Proof. intros H. apply mle_up, (proj1 (proj2 (proj2 (proj2 (mle_tables false n n' sf sf H (or_introl eq_refl)))))). Qed.
Lemma aloop_up {sf} n n' p nm stk st a st' : n <= n' -> aot_loop sf n p nm stk st = (Ok a, st') -> aot_loop sf n' p nm stk st = (Ok a, st').
Proof. intros H. apply mle_up, (proj2 (proj2 (proj2 (proj2 (mle_tables false n n' sf sf H (or_introl eq_refl)))))). Qed.

(** * What may follow *)
Definition blank (b : bool) : str := if b then [chLF] else [].
Definition stop (P : list str) (tail : str) : Prop := tail = [] \/ exists aot Q r, tail = hdr aot Q ++ r /\ Q <> [] /\ forall x, Q <> P ++ x.
Definition stopb (F : list str) (tail : str) : Prop := tail = [] \/ exists aot Q r, tail = hdr aot Q ++ r /\ Q <> [] /\ forall x, x <> [] -> Q <> F ++ x.
Lemma stopb_stop F k tail : stopb F tail -> stop (F ++ [k]) tail.
Proof.
  intros [->|(a & Q & r & E & Ne & H)]; [left; reflexivity|]. right. exists a, Q, r. split; [exact E|]. split; [exact Ne|]. intros x. rewrite <- app_assoc. apply H. discriminate.
Qed.
Lemma stop_stopb P x tail : stop P tail -> stopb (P ++ x) tail.
Proof.
  intros [->|(a & Q & r & E & Ne & H)]; [left; reflexivity|]. right. exists a, Q, r. split; [exact E|]. split; [exact Ne|]. intros y _. rewrite <- app_assoc. apply H.
Qed.
Lemma stopb_head F tail : stopb F tail -> tail_head tail.
Proof. intros [->|(a & Q & r & -> & _)]; [left; reflexivity|]. destruct (hdr_start a Q) as [r' ->]. right. cbn [app]. eauto. Qed.
(** The mark is where the parser stands, unless the text has ended. *)
Definition marked (pre tail : str) (mk : nat) : Prop := tail = [] \/ mk = List.length pre.
Lemma hkey_ne F K : hkey F K -> F <> [].
Proof. intros [_ _ H] ->. exact H. Qed.
Lemma hkey_parent F K : hkey F K -> List.length (key_parts K) = List.length F. Proof. apply hkey_length. Qed.

(** * The loops over tables *)
Lemma loop_sib n K stk c pre rest mk : tail_head rest -> exists mk', (marked pre rest mk') /\ table_loop false (S n) K stk c (mkSt pre rest mk) = siblings false (S n) K stk c (mkSt pre rest mk').
Proof.
  intros [->|(r & ->)].
  - exists mk. split; [left; reflexivity|]. reflexivity.
  - exists (List.length pre). split; [right; reflexivity|]. cbn [table_loop siblings]. unfold bind at 1, endM, at_end. cbn [p_rest]. unfold bind at 1. rewrite item_lbr.
    unfold bind at 1, current, cur. cbn [p_rest]. change (chLBR =? chLBR)%N with true. cbv iota. reflexivity.
Qed.
Definition sib_to (K : key) (stk : list key) (c : container) (st : pst) (c' : container) (pre tail : str) : Prop :=
  exists n mk', siblings false n K stk c st = (Ok c', mkSt pre tail mk') /\ marked pre tail mk'.
Definition loop_to (K : key) (stk : list key) (c : container) (st : pst) (c' : container) (pre tail : str) : Prop :=
  exists n mk', table_loop false n K stk c st = (Ok c', mkSt pre tail mk') /\ marked pre tail mk'.
Lemma sib_loop K stk c pre rest c' pre' tail : tail_head rest -> (forall mk, marked pre rest mk -> sib_to K stk c (mkSt pre rest mk) c' pre' tail) ->
  forall mk, loop_to K stk c (mkSt pre rest mk) c' pre' tail.
Proof.
  intros H X mk. destruct (loop_sib 0 K stk c pre rest mk H) as (mk1 & M & _). destruct (X mk1 M) as (n & mk' & E & M').
  apply (sibs_up n (S n)) in E; [|lia]. destruct (loop_sib n K stk c pre rest mk H) as (mk2 & M2 & E2). destruct H as [->|(r & ->)].
  - cbn [siblings] in E. unfold bind at 1, endM, at_end in E. cbn [p_rest] in E. injection E as <- <- <- <-. exists 1, mk. split; [reflexivity|left; reflexivity].
  - destruct M as [M|M]; [discriminate|]. destruct M2 as [M2|M2]; [discriminate|]. subst. exists (S n), mk'. rewrite E2. auto.
Qed.
Lemma sib_stop F K stk c pre tail mk : hkey F K -> stopb F tail -> marked pre tail mk -> sib_to K stk c (mkSt pre tail mk) c pre tail.
Proof.
  intros HK [->|(a & Q & r & -> & Ne & H)] M.
  - exists 1, mk. split; [reflexivity|exact M].
  - exists (S (S (List.length (path_text Q)))), mk. split; [|exact M]. remember (S (List.length (path_text Q))) as n eqn:En. destruct (peek_hdr a Q n r pre mk Ne) as (K' & E & HK'); [lia|]. cbn [siblings].
    unfold bind at 1, endM, at_end. cbn [p_rest]. replace (match hdr a Q ++ r with [] => true | _ => false end) with false by (destruct (hdr_start a Q) as [z ->]; reflexivity).
    unfold bind at 1. rewrite E. cbn [snd]. replace (is_child K K') with false; [reflexivity|]. symmetry. apply Bool.not_true_is_false. intros C. apply (hkey_child F K Q K' HK HK') in C as [C1 C2].
    pose proof (firstn_skipn (List.length F) Q) as Y. rewrite C2 in Y.
    apply (H (skipn (List.length F) Q)); [|symmetry; exact Y]. intros Z. apply C1. rewrite Z, app_nil_r in Y. exact Y.
Qed.

(** * Steps: the calls of [_parse_table] that make up one entry *)
Definition step : Type := (str * (skey * item))%type.
Definition texts (l : list step) : str := List.concat (map fst l).
Fixpoint runs (pa : option key) (pt : option str) (stk : list key) (pre : str) (l : list step) (tail : str) : Prop :=
  match l with
  | [] => True
  | (s, (p, it)) :: l' =>
      (exists m mk', parse_table false m pa pt stk (mkSt pre (s ++ texts l' ++ tail) (List.length pre)) = (Ok (KSingle p, it), mkSt (pre ++ s) (texts l' ++ tail) mk') /\ marked (pre ++ s) (texts l' ++ tail) mk')
      /\ runs pa pt stk (pre ++ s) l' tail
  end.
Definition adds (l : list step) (c c' : container) : Prop :=
  fold_res (fun c (s : step) => table_raw_append false c (Some (KSingle (fst (snd s)))) (snd (snd s))) l c = Ok c' /\
  fold_res (fun c (s : step) => cappend false c (Some (KSingle (fst (snd s)))) (snd (snd s))) l c = Ok c'.
Definition headed (F : list str) (k : str) (s : step) : Prop := exists aot ch r, fst s = hdr aot (F ++ k :: ch) ++ r.
Lemma child_of F K k ch K' : hkey F K -> hkey (F ++ k :: ch) K' -> is_child K K' = true.
Proof.
  intros H H'. apply (hkey_child F K _ K' H H'). split.
  - intros E. apply (f_equal (@List.length str)) in E. rewrite app_length in E. cbn [List.length] in E. lia.
  - rewrite firstn_app, Nat.sub_diag, firstn_all. cbn [firstn]. apply app_nil_r.
Qed.
Lemma sib_steps F k K stk l tail c' cR preR tailR : hkey F K -> forall pre c mk,
  Forall (headed F k) l -> runs (Some K) (Some (key_string K)) stk pre l tail ->
  fold_res (fun c (s : step) => table_raw_append false c (Some (KSingle (fst (snd s)))) (snd (snd s))) l c = Ok c' ->
  marked pre (texts l ++ tail) mk ->
  (forall mk, marked (pre ++ texts l) tail mk -> sib_to K stk c' (mkSt (pre ++ texts l) tail mk) cR preR tailR) ->
  sib_to K stk c (mkSt pre (texts l ++ tail) mk) cR preR tailR.
Proof.
  intros HK. induction l as [|[s [p it]] l IH]; intros pre c mk Hd R A M X.
  - cbn [texts map List.concat app fold_res] in *. injection A as ->. rewrite app_nil_r in X. auto.
  - cbn [runs] in R. destruct R as ((m & mk1 & E & M1) & R). apply Forall_cons_iff in Hd as [(a & ch & r & Es) Hd]. cbn [fst] in Es.
    cbn [fold_res fst snd] in A. destruct (table_raw_append false c (Some (KSingle p)) it) as [c1|e] eqn:Ea; [|discriminate]. cbn [rbind] in A.
    change (texts ((s, (p, it)) :: l)) with (s ++ texts l) in *.
    destruct (IH (pre ++ s) c1 mk1 Hd R A M1) as (n & mk' & En & M'). { intros mk2 M2. rewrite <- app_assoc in M2 |- *. apply X, M2. }
    rewrite <- app_assoc in M |- *. set (G := F ++ k :: ch) in *. assert (NeG : G <> []) by (subst G; destruct F; discriminate).
    assert (Ne : s ++ texts l ++ tail = hdr a G ++ r ++ texts l ++ tail) by (rewrite Es, <- app_assoc; reflexivity).
    destruct M as [M|M]. { exfalso. rewrite Ne in M. destruct (hdr_start a G) as [z Ez]. rewrite Ez in M. discriminate. } subst mk.
    set (q := S (List.length (path_text G))). exists (S (m + n + q)), mk'. split; [|exact M'].
    destruct (peek_hdr a G (m + n + q) (r ++ texts l ++ tail) pre (List.length pre) NeG) as (K' & Ep & HK'). { subst q. lia. }
    cbn [siblings]. unfold bind at 1, endM, at_end. cbn [p_rest]. replace (match s ++ texts l ++ tail with [] => true | _ => false end) with false.
    2: { rewrite Ne. destruct (hdr_start a G) as [z Ez]. rewrite Ez. reflexivity. }
    unfold bind at 1. rewrite Ne, Ep, <- Ne. cbn [snd]. rewrite (child_of F K k ch K' HK HK').
    apply (ptable_up m (m + n + q)) in E; [|lia]. unfold bind at 1. rewrite E. cbn [fst snd]. unfold bind at 1, table_append_m, lift. rewrite Ea.
    apply (sibs_up n (m + n + q)) in En; [|lia]. exact En.
Qed.

(** * Lines *)
Lemma lines_loop K stk ps rest : Forall reads_e ps -> forall c r pre mk, shows c r -> nows c -> NoDup (map fst r ++ map fst ps) ->
  exists c' r' mk1, Forall2 kveq ps r' /\ shows c' (r ++ r') /\ nows c' /\
    forall n cR st', table_loop false n K stk c' (mkSt (pre ++ flat_map line ps) rest mk1) = (Ok cR, st') ->
      exists n', table_loop false n' K stk c (mkSt pre (flat_map line ps ++ rest) mk) = (Ok cR, st').
Proof.
  induction 1 as [|[k v] ps R F IH]; intros c r pre mk Hs Hn Nd.
  - exists c, [], mk. rewrite app_nil_r. split; [constructor|]. split; [exact Hs|]. split; [exact Hn|]. cbn [flat_map]. rewrite app_nil_r. eauto.
  - destruct (line_item k v (flat_map line ps ++ rest) R) as (m & it & (P & v' & U & Q) & E). destruct (E pre mk) as [mk1 E1].
    cbn [map fst] in Nd. assert (Hk : ~ In k (map fst r)). { intros X. apply NoDup_remove_2 in Nd. apply Nd, in_or_app. left; exact X. }
    pose proof (shows_add c r (read_key k) it v' Hs Hk U) as Hs1. cbn [read_key k_key] in Hs1.
    destruct (IH (add_new c (read_key k) it) (r ++ [(k, v')]) (pre ++ line (k, v)) mk1 Hs1 (add_nows _ _ _ P)) as (c' & r' & mk2 & F2 & Hs2 & Hn2 & X). { rewrite map_app, <- app_assoc. exact Nd. }
    exists c', ((k, v') :: r'), mk2. split; [constructor; [split; [reflexivity|exact Q]|exact F2]|]. rewrite <- app_assoc in Hs2. split; [exact Hs2|]. split; [exact Hn2|].
    intros n cR st' En. cbn [flat_map] in En |- *. rewrite <- app_assoc in X. destruct (X n cR st' En) as [n' En']. exists (S (m + n')). rewrite <- app_assoc.
    cbn [table_loop]. unfold bind at 1, endM, at_end. cbn [p_rest]. replace (match line (k, v) ++ flat_map line ps ++ rest with [] => true | _ => false end) with false.
    2: { unfold line. destruct (key1_start k) as (z & zs & Ez & _). cbn [fst]. rewrite Ez. reflexivity. }
    unfold bind at 1. rewrite E1 by lia. unfold bind at 1, get. rewrite (plain_kind it P). unfold bind at 1, table_append_m, lift. rewrite (table_add c r) by assumption.
    apply (tloop_up n' (m + n')) in En'; [|lia]. exact En'.
Qed.
Lemma loop_lf K stk c rest cR pre preR tailR mk : nows c -> (forall mk, loop_to K stk (add_ws c [chLF]) (mkSt (pre ++ [chLF]) rest mk) cR preR tailR) ->
  loop_to K stk c (mkSt pre (chLF :: rest) mk) cR preR tailR.
Proof.
  intros Hn X. destruct (X (List.length pre)) as (n & mk' & E & M). exists (S n), mk'. split; [|exact M]. cbn [table_loop]. unfold bind at 1, endM, at_end. cbn [p_rest].
  unfold bind at 1. rewrite item_lf. unfold bind at 1, get. rewrite merge_none by exact Hn. unfold bind at 1, table_append_m, lift, table_raw_append.
  destruct (app_fuel_pos c None (IWs [chLF] false)) as [q ->]. rewrite append_ws. exact E.
Qed.

(** * The shape of the text *)
Definition bt : Type := (bool * (str * pyv))%type.
Definition tabs (F : list str) (ts : list bt) : str := flat_map (fun x : bt => blank (fst x) ++ ttext (F ++ [fst (snd x)]) (snd (snd x))) ts.
Definition body_text (F : list str) (ps : list (str * pyv)) (ts : list bt) : str := flat_map line ps ++ tabs F ts.
Definition tabl (kv : str * pyv) : bool := tablish (snd kv).
Fixpoint tagged (i : nat) (kvs : list (str * pyv)) : list bt :=
  match kvs with [] => [] | kv :: l => (if tabl kv then [(negb (Nat.eqb i 0), kv)] else []) ++ tagged (S i) l end.
Lemma tagged_snd kvs : forall i, map snd (tagged i kvs) = filter tabl kvs.
Proof. induction kvs as [|kv l IH]; intros i; [reflexivity|]. cbn [tagged filter]. rewrite map_app, IH. destruct (tabl kv); reflexivity. Qed.
Lemma blanks_plain F kvs : forall i, List.concat (map snd (filter (fun x : bool * str => negb (fst x)) (blanks i (map (entry F) kvs)))) = flat_map line (filter (fun kv => negb (tabl kv)) kvs).
Proof.
  induction kvs as [|[k x] l IH]; intros i; [reflexivity|]. cbn [map blanks filter fst]. unfold tabl at 1. cbn [entry snd]. destruct (tablish x); cbn [fst negb].
  - apply IH.
  - cbn [map List.concat flat_map]. rewrite IH. reflexivity.
Qed.
Lemma blanks_tabs F kvs : forall i, List.concat (map snd (filter (fun x : bool * str => fst x) (blanks i (map (entry F) kvs)))) = tabs F (tagged i kvs).
Proof.
  induction kvs as [|[k x] l IH]; intros i; [reflexivity|]. cbn [map blanks filter fst tagged]. unfold tabl at 1. cbn [entry snd]. destruct (tablish x) eqn:E; cbn [fst negb app].
  - cbn [map List.concat tabs flat_map]. rewrite IH. unfold with_blank. cbn [fst snd andb]. destruct (Nat.eqb i 0); reflexivity.
  - apply IH.
Qed.
Record splits (kvs ps : list (str * pyv)) (ts : list bt) : Prop := {
  sp_perm : Permutation kvs (ps ++ map snd ts);
  sp_plain : Forall (fun kv => tabl kv = false) ps;
  sp_tabs : Forall (fun x : bt => tabl (snd x) = true) ts }.
Lemma assemble_body F kvs : exists ps ts, splits kvs ps ts /\ assemble (map (entry F) kvs) = body_text F ps ts.
Proof.
  exists (filter (fun kv => negb (tabl kv)) kvs), (tagged 0 kvs). split.
  - split.
    + rewrite tagged_snd. apply filter_split.
    + apply Forall_forall. intros x Hx. apply filter_In in Hx as [_ Hx]. destruct (tabl x); [discriminate|reflexivity].
    + apply Forall_forall. intros x Hx. apply (in_map snd) in Hx. rewrite tagged_snd in Hx. apply filter_In in Hx. tauto.
  - unfold assemble, dicts_last. rewrite concat_app, blanks_plain. unfold body_text. f_equal. apply blanks_tabs.
Qed.
Definition el (path : list str) (d : pyv) : bool * str :=
  match d with
  | PDict kvs => (nonemptyb kvs, hdr true path ++ assemble (dicts_last (map (fun kv : str * pyv => match kv with (k, x) => (is_dict x, entry path (k, x)) end) kvs)))
  | _ => (false, [])
  end.
Lemma ttext_dict path kvs : ttext path (PDict kvs) = (if superb (PDict kvs) then [] else hdr false path) ++ assemble (map (entry path) kvs).
Proof. reflexivity. Qed.
Lemma ttext_list path l : ttext path (PList l) = elements false (map (el path) l).
Proof. reflexivity. Qed.
Lemma el_body path kvs : exists ps ts, splits kvs ps ts /\ el path (PDict kvs) = (nonemptyb kvs, hdr true path ++ body_text path ps ts).
Proof.
  set (kvs' := filter (fun kv : str * pyv => negb (is_dict (snd kv))) kvs ++ filter (fun kv => is_dict (snd kv)) kvs).
  destruct (assemble_body path kvs') as (ps & ts & [A B C] & E). exists ps, ts. split.
  - split; [|exact B|exact C]. etransitivity; [|exact A]. apply filter_split.
  - cbn [el]. f_equal. f_equal. rewrite <- E. f_equal. subst kvs'. rewrite <- dicts_last_map. f_equal. apply map_ext. intros [k x]. reflexivity.
Qed.
Lemma assemble_one F k x : tablish x = true -> assemble (map (entry F) [(k, x)]) = ttext (F ++ [k]) x.
Proof. intros H. unfold assemble, dicts_last. cbn [map entry blanks filter]. rewrite H. cbn [fst snd negb filter map with_blank andb Nat.eqb List.concat app]. apply app_nil_r. Qed.
Lemma tablish_list l : tablish (PList l) = true -> exists d ds, l = d :: ds /\ Forall (fun d => is_dict d = true) l.
Proof. destruct l as [|d ds]; [discriminate|]. cbn [tablish]. intros H. exists d, ds. split; [reflexivity|]. apply Forall_forall, forallb_forall. exact H. Qed.
Lemma superb_inv kvs : superb (PDict kvs) = true -> exists k x, kvs = [(k, x)] /\ tablish x = true.
Proof. destruct kvs as [|[k x] [|? ?]]; try discriminate. cbn [superb]. eauto. Qed.
Lemma ttext_head v : tablish v = true -> forall P, exists aot ch r, ttext P v = hdr aot (P ++ ch) ++ r.
Proof.
  induction v as [ | | | | | | |l IH|l IH] using pyv_rect2; intros H P; try discriminate.
  - destruct (tablish_list l H) as (d & ds & -> & F). apply Forall_cons_iff in F as [D _]. destruct d as [ | | | | | | | |kvs]; try discriminate.
    rewrite ttext_list. cbn [map]. destruct (el_body P kvs) as (ps & ts & _ & E). rewrite E. cbn [elements app]. exists true, []. rewrite app_nil_r, <- app_assoc. eauto.
  - rewrite ttext_dict. destruct (superb (PDict l)) eqn:S1.
    + destruct (superb_inv l S1) as (k & x & -> & T). apply Forall_cons_iff in IH as [IH _]. cbn [snd] in IH. destruct (IH T (P ++ [k])) as (a & ch & r & E).
      cbn [app]. rewrite assemble_one, E by exact T. exists a, (k :: ch), r. rewrite <- app_assoc. reflexivity.
    + exists false, []. rewrite app_nil_r. eauto.
Qed.
(** The blank line before a table is read with what precedes it. *)
Definition nb (ts : list bt) (lf : str) : str := match ts with [] => lf | x :: _ => blank (fst x) end.
Fixpoint sibs (F : list str) (ts : list bt) (lf : str) : str :=
  match ts with [] => [] | x :: ts' => ttext (F ++ [fst (snd x)]) (snd (snd x)) ++ nb ts' lf ++ sibs F ts' lf end.
Lemma tabs_sibs F ts lf : tabs F ts ++ lf = nb ts lf ++ sibs F ts lf.
Proof. induction ts as [|x ts IH]; [symmetry; apply app_nil_r|]. cbn [tabs flat_map nb sibs]. fold (tabs F ts). rewrite <- !app_assoc, IH. reflexivity. Qed.

(** * Stacks and clashes *)
Definition single_in (stk : list key) (k : str) : Prop := exists s, In (KSingle s) stk /\ k_key s = k.
Definition stack_ok (n : nat) (stk : list key) : Prop := Forall (fun K => List.length (key_parts K) <= n) stk.
(** A dict reached only through left-out headers that ends in two or more tables. *)
Fixpoint multi (v : pyv) : bool :=
  match v with PDict [(_, x)] => match x with PList (_ :: _ :: _) => tablish x | _ => multi x end | _ => false end.
(** The names under which such dicts occur below a header of [v]. *)
Fixpoint ebad (v : pyv) : list str :=
  let bodyb := flat_map (fun kv : str * pyv => match kv with (k, x) => (if multi x then [k] else []) ++ ebad x end) in
  match v with
  | PDict kvs => if superb v then match kvs with [(_, x)] => ebad x | _ => [] end else bodyb kvs
  | PList l => if tablish v then flat_map (fun d => match d with PDict kvs => bodyb kvs | _ => [] end) l else []
  | _ => []
  end.
Definition bodyb (kvs : list (str * pyv)) : list str := flat_map (fun kv : str * pyv => match kv with (k, x) => (if multi x then [k] else []) ++ ebad x end) kvs.
Lemma ebad_dict kvs : superb (PDict kvs) = false -> ebad (PDict kvs) = bodyb kvs.
Proof. intros H. cbn [ebad]. rewrite H. reflexivity. Qed.
Definition mchain (chain : list str) (v : pyv) : bool := multi (match chain with [] => v | _ => PDict [([], v)] end).
Record safe (stk : list key) (F : list str) (k : str) (chain : list str) (v : pyv) : Prop := {
  sf_in : forall s, single_in stk s -> ~ In s (ebad v);
  sf_chain : mchain chain v = true -> ~ single_in stk k;
  sf_top : F = [] -> chain = [] -> match v with PList (_ :: ds) => Forall (fun d => match d with PDict kvs => ~ In k (bodyb kvs) | _ => True end) ds | _ => True end }.
Definition safeb (stk : list key) (kvs : list (str * pyv)) : Prop := forall s, single_in stk s -> ~ In s (bodyb kvs).
Lemma safeb_perm stk l l' : Permutation l l' -> safeb stk l -> safeb stk l'.
Proof. intros P H s Hs Hb. apply (H s Hs). unfold bodyb in *. apply in_flat_map in Hb as (x & Hx & Hb). apply in_flat_map. exists x. split; [|exact Hb]. eapply Permutation_in; [symmetry; exact P|exact Hx]. Qed.
Lemma safeb_entry stk F k x kvs : safeb stk kvs -> In (k, x) kvs -> F <> [] -> safe stk F k [] x.
Proof.
  intros H I N. split.
  - intros s Hs Hb. apply (H s Hs). apply in_flat_map. exists (k, x). split; [exact I|]. apply in_or_app. right. exact Hb.
  - intros M Hk. apply (H k Hk). apply in_flat_map. exists (k, x). split; [exact I|]. apply in_or_app. left. cbn [mchain] in M. unfold mchain in M. rewrite M. left. reflexivity.
  - congruence.
Qed.
Lemma safe_super stk F k chain k1 x : tablish x = true -> safe stk F k chain (PDict [(k1, x)]) -> safe stk F k (chain ++ [k1]) x.
Proof.
  intros T [A B C]. split.
  - intros s Hs Hb. apply (A s Hs). cbn [ebad superb]. rewrite T. exact Hb.
  - intros M. apply B. assert (E : mchain (chain ++ [k1]) x = multi (PDict [([], x)])) by (destruct chain; reflexivity). rewrite E in M. destruct chain; exact M.
  - intros _ H. destruct chain; discriminate.
Qed.
Lemma fine_dict kvs : py_fine (PDict kvs) -> NoDup (map fst kvs) /\ Forall (fun kv => py_fine (snd kv)) kvs.
Proof. intros H. inversion H as [? B| |]; subst; [destruct B|auto]. Qed.
Lemma fine_list l : py_fine (PList l) -> Forall py_fine l.
Proof. intros H. inversion H as [? B| |]; subst; [destruct B|auto]. Qed.

(** * Entries and bodies *)
Definition parent_of (F : list str) (pa : option key) : Prop := match pa with None => F = [] | Some K => hkey F K end.
Definition not_elem (s : step) : Prop := match snd (snd s) with ITable _ m => tm_aot m = false | _ => True end.
Definition Entry (v : pyv) : Prop := forall F k chain stk pa pt lf tail pre,
  py_fine v -> tablish v = true -> parent_of F pa -> stack_ok (List.length F) stk -> safe stk F k chain v -> (lf = [] \/ lf = [chLF]) -> stop (F ++ [k]) tail ->
  exists steps v', pyeq (wrap chain v) v' /\ texts steps = ttext (F ++ k :: chain) v ++ lf /\ runs pa pt stk pre steps tail /\ Forall (headed F k) steps
    /\ (stk = [] -> Forall not_elem steps)
    /\ forall c r, shows c r -> ~ In k (map fst r) -> exists c', adds steps c c' /\ shows c' (r ++ [(k, v')]).
Definition Body (kvs : list (str * pyv)) : Prop := forall ps ts F K stk lf tail pre mk,
  py_fine (PDict kvs) -> splits kvs ps ts -> hkey F K -> stack_ok (List.length F) stk -> safeb stk kvs -> (lf = [] \/ lf = [chLF]) -> stopb F tail ->
  exists c r, Forall2 kveq (ps ++ map snd ts) r /\ shows c r /\
    loop_to K stk (empty_cont true) (mkSt pre (body_text F ps ts ++ lf ++ tail) mk) c (pre ++ body_text F ps ts ++ lf) tail.
Lemma splits_sub kvs ps ts : splits kvs ps ts -> forall kv, In kv (ps ++ map snd ts) -> In kv kvs.
Proof. intros [P _ _] kv H. eapply Permutation_in; [symmetry; exact P|exact H]. Qed.
Lemma sibs_stop F k ts lf tail : Forall (fun x : bt => tabl (snd x) = true) ts -> ~ In k (map fst (map snd ts)) -> stopb F tail -> stop (F ++ [k]) (sibs F ts lf ++ tail).
Proof.
  intros T N H. destruct ts as [|[b [k' x]] ts]; [apply stopb_stop, H|]. apply Forall_cons_iff in T as [T _]. cbn [sibs snd fst tabl] in *. destruct (ttext_head x T (F ++ [k'])) as (a & ch & r & E).
  right. exists a, ((F ++ [k']) ++ ch), (r ++ (nb ts lf ++ sibs F ts lf) ++ tail). split; [rewrite E, <- !app_assoc; reflexivity|]. split; [destruct F; discriminate|].
  intros y Z. rewrite <- !app_assoc in Z. apply app_inv_head in Z. injection Z as Z _. apply N. cbn [map fst]. left. auto.
Qed.
Lemma sibs_head F ts lf tail : Forall (fun x : bt => tabl (snd x) = true) ts -> stopb F tail -> tail_head (sibs F ts lf ++ tail).
Proof.
  intros T H. destruct ts as [|[b [k' x]] ts]; [eapply stopb_head, H|]. apply Forall_cons_iff in T as [T _]. cbn [sibs snd fst tabl] in *. destruct (ttext_head x T (F ++ [k'])) as (a & ch & r & E).
  rewrite E. destruct (hdr_start a ((F ++ [k']) ++ ch)) as [z ->]. right. cbn [app]. eauto.
Qed.
Lemma blank_ok b : blank b = [] \/ blank b = [chLF]. Proof. destruct b; cbn; auto. Qed.
Lemma nb_ok ts lf : lf = [] \/ lf = [chLF] -> nb ts lf = [] \/ nb ts lf = [chLF].
Proof. destruct ts; cbn [nb]; [auto|]. intros _. apply blank_ok. Qed.
Lemma sibs_run F K stk lf tail ts : hkey F K -> stack_ok (List.length F) stk -> (lf = [] \/ lf = [chLF]) -> stopb F tail ->
  Forall (fun x : bt => tabl (snd x) = true) ts -> Forall (fun x : bt => Entry (snd (snd x)) /\ py_fine (snd (snd x)) /\ safe stk F (fst (snd x)) [] (snd (snd x))) ts ->
  forall pre c r mk, shows c r -> NoDup (map fst r ++ map fst (map snd ts)) -> marked pre (sibs F ts lf ++ tail) mk ->
  exists c' r', Forall2 kveq (map snd ts) r' /\ shows c' (r ++ r') /\ sib_to K stk c (mkSt pre (sibs F ts lf ++ tail) mk) c' (pre ++ sibs F ts lf) tail.
Proof.
  intros HK Hst Hlf Hstop T F0. induction F0 as [|[b [k x]] ts (HE & Hf & Hsafe) F0 IH]; intros pre c r mk Hs Nd M.
  - exists c, []. rewrite !app_nil_r. split; [constructor|]. split; [exact Hs|]. cbn [sibs app]. eapply sib_stop; eauto.
  - apply Forall_cons_iff in T as [T Ts]. cbn [snd fst tabl map] in *.
    assert (Nk : ~ In k (map fst r) /\ ~ In k (map fst (map snd ts))). { apply NoDup_remove_2 in Nd. split; intros Z; apply Nd, in_or_app; auto. }
    destruct Nk as [Nk1 Nk2].
    destruct (HE F k [] stk (Some K) (Some (key_string K)) (nb ts lf) (sibs F ts lf ++ tail) pre Hf T HK Hst Hsafe (nb_ok ts lf Hlf) (sibs_stop F k ts lf tail Ts Nk2 Hstop))
      as (steps & v' & Q & Tx & R & Hd & _ & A). cbn [wrap] in Q.
    destruct (A c r Hs Nk1) as (c1 & [A1 _] & Hs1).
    destruct (IH Ts (pre ++ texts steps) c1 (r ++ [(k, v')]) (List.length (pre ++ texts steps)) Hs1) as (c2 & r2 & F2 & Hs2 & _). { rewrite map_app, <- app_assoc. exact Nd. } { right; reflexivity. }
    assert (X : exists c2 r2, Forall2 kveq (map snd ts) r2 /\ shows c2 ((r ++ [(k, v')]) ++ r2) /\ forall mk, marked (pre ++ texts steps) (sibs F ts lf ++ tail) mk -> sib_to K stk c1 (mkSt (pre ++ texts steps) (sibs F ts lf ++ tail) mk) c2 ((pre ++ texts steps) ++ sibs F ts lf) tail).
    { destruct (sibs F ts lf ++ tail) as [|z zs] eqn:Ez.
      - destruct (IH Ts (pre ++ texts steps) c1 (r ++ [(k, v')]) 0 Hs1) as (c3 & r3 & F3 & Hs3 & S3). { rewrite map_app, <- app_assoc. exact Nd. } { left; reflexivity. }
        exists c3, r3. split; [exact F3|]. split; [exact Hs3|]. intros mk1 _. destruct S3 as (n & mk2 & E & M2). exists 1, mk1. destruct n as [|n]; [discriminate|].
        cbn [siblings] in E |- *. unfold bind, endM, at_end in E |- *. cbn [p_rest] in E |- *. unfold ret in *. injection E as E1 E2 E3 E4. rewrite E1, <- E3, <- E2. split; [reflexivity|]. left. reflexivity.
      - destruct (IH Ts (pre ++ texts steps) c1 (r ++ [(k, v')]) (List.length (pre ++ texts steps)) Hs1) as (c3 & r3 & F3 & Hs3 & S3). { rewrite map_app, <- app_assoc. exact Nd. } { right; reflexivity. }
        exists c3, r3. split; [exact F3|]. split; [exact Hs3|]. intros mk1 [Z|Z]; [discriminate|]. subst mk1. exact S3. }
    clear c2 r2 F2 Hs2. destruct X as (c2 & r2 & F2 & Hs2 & S2).
    exists c2, ((k, v') :: r2). split; [constructor; [split; [reflexivity|exact Q]|exact F2]|]. rewrite <- app_assoc in Hs2. split; [exact Hs2|].
    cbn [sibs fst snd] in M |- *. assert (E1 : (ttext (F ++ [k]) x ++ nb ts lf ++ sibs F ts lf) ++ tail = texts steps ++ sibs F ts lf ++ tail) by (rewrite Tx, <- !app_assoc; reflexivity).
    assert (E2 : pre ++ ttext (F ++ [k]) x ++ nb ts lf ++ sibs F ts lf = (pre ++ texts steps) ++ sibs F ts lf) by (rewrite Tx, <- !app_assoc; reflexivity).
    rewrite E1 in M |- *. rewrite E2. eapply sib_steps; eauto.
Qed.
Lemma nodup_left {A} (a b : list A) : NoDup (a ++ b) -> NoDup a.
Proof. induction a as [|x a IH]; [constructor|]. cbn [app]. intros H. inversion H; subst. constructor; [|auto]. intros Z. apply H2, in_or_app. auto. Qed.
Lemma body_ok kvs : Forall (fun kv => Entry (snd kv)) kvs -> Body kvs.
Proof.
  intros HE ps ts F K stk lf tail pre mk Hf Sp HK Hst Hsafe Hlf Hstop. destruct (fine_dict kvs Hf) as [Nd Fl].
  assert (Nd' : NoDup (map fst ps ++ map fst (map snd ts))). { rewrite <- map_app. eapply perm_nodup; [apply Sp|exact Nd]. }
  assert (Rp : Forall reads_e ps). { apply Forall_forall. intros kv Hkv. apply values_read. rewrite Forall_forall in Fl. apply Fl. eapply splits_sub; [exact Sp|]. apply in_or_app. left. exact Hkv. }
  assert (Ft : Forall (fun x : bt => Entry (snd (snd x)) /\ py_fine (snd (snd x)) /\ safe stk F (fst (snd x)) [] (snd (snd x))) ts).
  { apply Forall_forall. intros [b [k x]] Hx. cbn [fst snd]. assert (I : In (k, x) kvs). { eapply splits_sub; [exact Sp|]. apply in_or_app. right. apply (in_map snd) in Hx. exact Hx. }
    rewrite Forall_forall in HE, Fl. specialize (HE _ I). specialize (Fl _ I). cbn [snd] in *. split; [exact HE|]. split; [exact Fl|]. eapply safeb_entry; [exact Hsafe|exact I|eapply hkey_ne; eauto]. }
  set (rest := nb ts lf ++ sibs F ts lf ++ tail).
  destruct (lines_loop K stk ps rest Rp (empty_cont true) [] pre mk shows_empty I) as (c1 & r1 & mk1 & F1 & Hs1 & Hn1 & X1). { cbn [map app]. eapply nodup_left. exact Nd'. }
  cbn [app] in Hs1.
  set (c2 := match nb ts lf with [] => c1 | _ => add_ws c1 [chLF] end). set (pre2 := (pre ++ flat_map line ps) ++ nb ts lf).
  assert (Hs2 : shows c2 r1) by (subst c2; destruct (nb ts lf); [exact Hs1|apply shows_ws, Hs1]).
  assert (Nd2 : NoDup (map fst r1 ++ map fst (map snd ts))) by (rewrite <- (kveq_keys _ _ F1); exact Nd').
  assert (X2 : exists c3 r3, Forall2 kveq (map snd ts) r3 /\ shows c3 (r1 ++ r3) /\ forall mk, marked pre2 (sibs F ts lf ++ tail) mk -> sib_to K stk c2 (mkSt pre2 (sibs F ts lf ++ tail) mk) c3 (pre2 ++ sibs F ts lf) tail).
  { destruct (sibs_run F K stk lf tail ts HK Hst Hlf Hstop (sp_tabs _ _ _ Sp) Ft pre2 c2 r1 (List.length pre2) Hs2 Nd2) as (c3 & r3 & F3 & Hs3 & S3). { right; reflexivity. }
    exists c3, r3. split; [exact F3|]. split; [exact Hs3|]. intros mk2 [Z|Z]; [|subst mk2; exact S3]. destruct S3 as (n & mk3 & E & M2). exists 1, mk2. rewrite Z in *. destruct n as [|n]; [discriminate|].
    cbn [siblings] in E |- *. unfold bind, endM, at_end in E |- *. cbn [p_rest] in E |- *. unfold ret in *. injection E as Q1 Q2 Q3 Q4. rewrite Q1, <- Q3, <- Q2. split; [reflexivity|]. left. reflexivity. }
  destruct X2 as (c3 & r3 & F3 & Hs3 & S3). exists c3, (r1 ++ r3). split; [apply Forall2_app; assumption|]. split; [exact Hs3|].
  assert (Lp : forall mk, loop_to K stk c2 (mkSt pre2 (sibs F ts lf ++ tail) mk) c3 (pre2 ++ sibs F ts lf) tail). { intros mk2. apply sib_loop; [apply sibs_head; [apply Sp|exact Hstop]|exact S3]. }
  assert (Lq : loop_to K stk c1 (mkSt (pre ++ flat_map line ps) rest mk1) c3 (pre2 ++ sibs F ts lf) tail).
  { subst rest c2 pre2. destruct (nb_ok ts lf Hlf) as [E|E]; rewrite E in *; cbn [app] in *.
    - rewrite app_nil_r in *. apply Lp.
    - apply loop_lf; [exact Hn1|exact Lp]. }
  destruct Lq as (n & mk2 & E & M2). destruct (X1 n c3 _ E) as (n' & E').
  assert (T1 : body_text F ps ts ++ lf = flat_map line ps ++ nb ts lf ++ sibs F ts lf) by (unfold body_text; rewrite <- app_assoc, tabs_sibs; reflexivity).
  exists n', mk2. subst rest pre2. rewrite app_assoc, T1. rewrite <- !app_assoc in *. split; [exact E'|exact M2].
Qed.
(** A header and its body. *)
Lemma table_run kvs aot G ps ts pa pt stk lf tail pre : Body kvs -> py_fine (PDict kvs) -> splits kvs ps ts -> G <> [] -> stack_ok (List.length G) stk -> safeb stk kvs -> (lf = [] \/ lf = [chLF]) -> stopb G tail ->
  exists full n0 c r mk', hkey G full /\ pyeq (PDict kvs) (PDict r) /\ shows c r /\ marked (pre ++ hdr aot G ++ body_text G ps ts ++ lf) tail mk' /\
    forall n, n0 <= n -> parse_table false (S n) pa pt stk (mkSt pre ((hdr aot G ++ body_text G ps ts ++ lf) ++ tail) (List.length pre)) = finish n pa stk aot full c (mkSt (pre ++ hdr aot G ++ body_text G ps ts ++ lf) tail mk').
Proof.
  intros B Hf Sp Ne Hst Hsafe Hlf Hstop. destruct (header_run aot G pa pt stk pre (body_text G ps ts ++ lf ++ tail) Ne) as (full & mk1 & HK & E).
  destruct (B ps ts G full stk lf tail (pre ++ hdr aot G) mk1 Hf Sp HK Hst Hsafe Hlf Hstop) as (c & r & F & Hs & n & mk' & El & M).
  exists full, (n + S (List.length (path_text G))), c, r, mk'. split; [exact HK|]. split; [eapply pe_dict; [apply Sp|exact F]|]. split; [exact Hs|]. rewrite <- app_assoc in M. split; [exact M|].
  intros n2 Hn2. replace ((hdr aot G ++ body_text G ps ts ++ lf) ++ tail) with (hdr aot G ++ body_text G ps ts ++ lf ++ tail) by (rewrite <- !app_assoc; reflexivity).
  rewrite E by lia. apply (tloop_up n n2) in El; [|lia]. unfold after_header. unfold bind at 1. rewrite El. unfold bind at 1, lift. rewrite (shows_validate c r Hs). rewrite <- app_assoc. reflexivity.
Qed.
Lemma parts_split F k chain K pa : parent_of F pa -> hkey (F ++ k :: chain) K ->
  exists p rest, skipn (match pa with Some p => List.length (key_parts p) | None => 0 end) (key_parts K) = p :: rest /\ k_key p = k /\ map k_key rest = chain /\ Forall (fun p => k_dotted p = false) (p :: rest).
Proof.
  intros HP [A B _]. assert (E : (match pa with Some p => List.length (key_parts p) | None => 0 end) = List.length F). { destruct pa as [K'|]; cbn in HP; [apply hkey_length, HP|subst; reflexivity]. }
  rewrite E. assert (X : map k_key (skipn (List.length F) (key_parts K)) = k :: chain). { rewrite <- skipn_map, A, skipn_app, skipn_all, Nat.sub_diag. reflexivity. }
  assert (Y : Forall (fun p => k_dotted p = false) (skipn (List.length F) (key_parts K))). { rewrite <- (firstn_skipn (List.length F)) in B. apply Forall_app in B as [_ B]. eapply Forall_impl; [|exact B]. intros a [Ha _]. exact Ha. }
  destruct (skipn _ (key_parts K)) as [|p rest]; [discriminate|]. cbn [map] in X. injection X as X1 X2. exists p, rest. auto.
Qed.
Lemma adds_new c r k p it v : shows c r -> ~ In k (map fst r) -> k_key p = k -> sunwrap it = Some v -> forall s, adds [(s, (p, it))] c (add_new c p it) /\ shows (add_new c p it) (r ++ [(k, v)]).
Proof.
  intros Hs N <- U s. destruct (cappend_add c r p it v Hs N U) as [E Hs']. split; [|exact Hs']. split; cbn [fold_res fst snd]; [rewrite (table_add c r) by assumption|rewrite E]; reflexivity.
Qed.
Lemma app_ne {A} (F : list A) k l : F ++ k :: l <> []. Proof. destruct F; discriminate. Qed.
Lemma entry_dict kvs : Body kvs -> superb (PDict kvs) = false -> Entry (PDict kvs).
Proof.
  intros B S0 F k chain stk pa pt lf tail pre Hf _ HP Hst [Sf _ _] Hlf Hstop. rewrite ttext_dict, S0.
  set (G := F ++ k :: chain). destruct (assemble_body G kvs) as (ps & ts & Sp & Eb). rewrite Eb.
  assert (LG : List.length F <= List.length G) by (subst G; rewrite app_length; lia).
  destruct (table_run kvs false G ps ts pa pt stk lf tail pre B Hf Sp) as (full & n0 & c & r & mk' & HK & Q & Hs & M & E).
  { apply app_ne. } { eapply Forall_impl; [|exact Hst]. cbv beta. intros; lia. } { intros s Hin. rewrite <- (ebad_dict kvs S0). apply Sf, Hin. } { exact Hlf. }
  { subst G. replace (F ++ k :: chain) with ((F ++ [k]) ++ chain) by (rewrite <- app_assoc; reflexivity). apply stop_stopb, Hstop. }
  specialize (E n0 (Nat.le_refl n0)). destruct (parts_split F k chain full pa HP HK) as (p & rest & Ep & Kp & Kr & Dp).
  assert (X : exists it, finish n0 pa stk false full c (mkSt (pre ++ hdr false G ++ body_text G ps ts ++ lf) tail mk') = (Ok (KSingle p, it), mkSt (pre ++ hdr false G ++ body_text G ps ts ++ lf) tail mk')
    /\ sunwrap it = Some (wrap chain (PDict r)) /\ match it with ITable _ m => tm_aot m = false | _ => True end).
  { unfold finish. cbv zeta. rewrite Ep. destruct rest as [|p2 rest].
    - cbn [map] in Kr. subst chain. eexists. split; [reflexivity|]. split; [|reflexivity]. cbn [wrap]. rewrite sunwrap_table, (shows_unwrap c r Hs). reflexivity.
    - eexists. split; [reflexivity|]. split; [|reflexivity].
      match goal with |- context [nest _ _ _ c ?m false] => destruct (nest_chain (p2 :: rest) c m false ltac:(discriminate) (Forall_inv_tail Dp) (k_key p)) as [nm Hc] end.
      rewrite Kr in Hc. eapply chain_unwrap; [exact Hc|]. cbn [leaf_item]. rewrite sunwrap_table, (shows_unwrap c r Hs). reflexivity. }
  destruct X as (it & Ef & U & Na).
  exists [(hdr false G ++ body_text G ps ts ++ lf, (p, it))], (wrap chain (PDict r)). split; [apply wrap_eq, Q|]. split; [unfold texts; cbn [map List.concat fst]; rewrite app_nil_r, <- app_assoc; reflexivity|].
  split; [|split; [|split]].
  - cbn [runs texts map List.concat]. split; [|exact I]. exists (S n0), mk'. split; [|exact M]. cbn [app]. rewrite E. exact Ef.
  - constructor; [|constructor]. exists false, chain. eexists. reflexivity.
  - intros _. constructor; [exact Na|constructor].
  - intros c0 r0 Hs0 N0. destruct (adds_new c0 r0 k p it _ Hs0 N0 Kp U (hdr false G ++ body_text G ps ts ++ lf)) as [A1 A2]. eauto.
Qed.
Lemma entry_super k1 x : Entry x -> tablish x = true -> Entry (PDict [(k1, x)]).
Proof.
  intros HE T F k chain stk pa pt lf tail pre Hf _ HP Hst Hsafe Hlf Hstop. destruct (fine_dict _ Hf) as [_ Fx]. apply Forall_cons_iff in Fx as [Fx _]. cbn [snd] in Fx.
  destruct (HE F k (chain ++ [k1]) stk pa pt lf tail pre Fx T HP Hst (safe_super _ _ _ _ _ _ T Hsafe) Hlf Hstop) as (steps & v' & Q & Tx & X).
  exists steps, v'. split; [rewrite wrap_app in Q; exact Q|]. split; [|exact X]. rewrite Tx, ttext_dict. cbn [superb]. rewrite T, assemble_one by exact T. cbn [app]. rewrite <- app_assoc. reflexivity.
Qed.

(** * Arrays of tables *)
Fixpoint segs (G : list str) (lf : str) (ls : list (list (str * pyv))) : list str :=
  match ls with [] => [] | kvs :: ls' => (snd (el G (PDict kvs)) ++ match ls' with [] => lf | _ => blank (nonemptyb kvs) end) :: segs G lf ls' end.
Lemma elements_blank b x l : elements b (x :: l) = blank b ++ elements false (x :: l).
Proof. destruct x as [ne s]. cbn [elements app]. destruct b; reflexivity. Qed.
Lemma elements_segs G lf ls : ls <> [] -> elements false (map (el G) (map PDict ls)) ++ lf = List.concat (segs G lf ls).
Proof.
  induction ls as [|kvs ls IH]; [congruence|]. intros _. cbn [map segs List.concat]. destruct ls as [|kvs2 ls].
  - cbn [map]. destruct (el G (PDict kvs)) as [ne s]. cbn [elements app snd segs List.concat]. rewrite !app_nil_r. reflexivity.
  - rewrite <- IH by discriminate. cbn [map]. set (e := el G (PDict kvs)). assert (E : e = (nonemptyb kvs, snd e)) by reflexivity. rewrite E. cbn [snd]. change (elements false ((nonemptyb kvs, snd e) :: el G (PDict kvs2) :: map (el G) (map PDict ls))) with ([] ++ snd e ++ elements (nonemptyb kvs) (el G (PDict kvs2) :: map (el G) (map PDict ls))).
    rewrite elements_blank. cbn [app]. rewrite <- !app_assoc. reflexivity.
Qed.
Lemma seg_head G kvs : exists r, snd (el G (PDict kvs)) = hdr true G ++ r.
Proof. cbn [el snd]. eauto. Qed.
Lemma segs_stop F k chain lf ls tail : stop (F ++ [k]) tail -> stopb (F ++ k :: chain) (List.concat (segs (F ++ k :: chain) lf ls) ++ tail).
Proof.
  intros H. destruct ls as [|kvs ls].
  - cbn [segs List.concat app]. replace (F ++ k :: chain) with ((F ++ [k]) ++ chain) by (rewrite <- app_assoc; reflexivity). apply stop_stopb, H.
  - set (G := F ++ k :: chain). cbn [segs List.concat]. destruct (seg_head G kvs) as [r E]. rewrite E. right. exists true, G. eexists. rewrite <- !app_assoc. split; [reflexivity|]. split; [apply app_ne|].
    intros x Hx Z. apply Hx. rewrite <- (app_nil_r G) in Z at 1. apply app_inv_head in Z. auto.
Qed.
Lemma elem_run kvs G pa pt stk lf tail pre : Body kvs -> py_fine (PDict kvs) -> G <> [] -> stack_ok (List.length G) stk -> safeb stk kvs -> (lf = [] \/ lf = [chLF]) -> stopb G tail ->
  exists full n0 c r mk', hkey G full /\ pyeq (PDict kvs) (PDict r) /\ shows c r /\ marked (pre ++ snd (el G (PDict kvs)) ++ lf) tail mk' /\
    forall n, n0 <= n -> parse_table false (S n) pa pt stk (mkSt pre ((snd (el G (PDict kvs)) ++ lf) ++ tail) (List.length pre)) = finish n pa stk true full c (mkSt (pre ++ snd (el G (PDict kvs)) ++ lf) tail mk').
Proof.
  intros B Hf Ne Hst Hsafe Hlf Hstop. destruct (el_body G kvs) as (ps & ts & Sp & E). rewrite E. cbn [snd].
  destruct (table_run kvs true G ps ts pa pt stk lf tail pre B Hf Sp Ne Hst Hsafe Hlf Hstop) as (full & n0 & c & r & mk' & X). exists full, n0, c, r, mk'. rewrite <- !app_assoc in *. exact X.
Qed.
Definition elem_fine (stk : list key) (kvs : list (str * pyv)) : Prop := Body kvs /\ py_fine (PDict kvs) /\ safeb stk kvs.
Definition eqd (kvs r : list (str * pyv)) : Prop := pyeq (PDict kvs) (PDict r).
Definition elem_step (stk : list key) (k : str) (chain : list str) (r : list (str * pyv)) (s : step) : Prop :=
  k_key (fst (snd s)) = k /\ k_dotted (fst (snd s)) = false /\ exists ic im nm c m, snd (snd s) = ITable ic im /\ chain_of (IAoT [(c, m)] (Some nm) true aot_trivia) chain ic
    /\ tm_super im = Some true /\ tr_indent (tm_trivia im) = [] /\ tm_name im <> None /\ (~ single_in stk k -> tm_aot im = false) /\ sunwrap_cont c = Some r.
Lemma in_stack_single p stk : existsb (key_eqb (KSingle p)) stk = true -> single_in stk (k_key p).
Proof.
  intros H. apply existsb_exists in H as (K & Hin & E). destruct K as [s|]; [|discriminate]. cbn [key_eqb] in E. apply str_eqb_eq in E. exists s. auto.
Qed.
Lemma chain_steps F k chain pa pt stk lf tail : parent_of F pa -> chain <> [] -> stack_ok (List.length F) stk -> (lf = [] \/ lf = [chLF]) -> stop (F ++ [k]) tail ->
  forall ls, Forall (elem_fine stk) ls -> forall pre, exists steps rs, map fst steps = segs (F ++ k :: chain) lf ls /\ runs pa pt stk pre steps tail /\ Forall2 eqd ls rs /\ Forall2 (elem_step stk k chain) rs steps.
Proof.
  intros HP Nc Hst Hlf Hstop ls Fl. set (G := F ++ k :: chain). assert (LG : List.length F <= List.length G) by (subst G; rewrite app_length; lia).
  induction Fl as [|kvs ls (B & Hf & Hsafe) Fl IH]; intros pre; [exists [], []; split; [reflexivity|]; split; [exact I|split; constructor]|].
  set (lf1 := match ls with [] => lf | _ => blank (nonemptyb kvs) end). assert (Hlf1 : lf1 = [] \/ lf1 = [chLF]) by (subst lf1; destruct ls; [exact Hlf|apply blank_ok]).
  set (s := snd (el G (PDict kvs)) ++ lf1). destruct (IH (pre ++ s)) as (steps & rs & Tx & R & Fe & F2).
  destruct (elem_run kvs G pa pt stk lf1 (List.concat (segs G lf ls) ++ tail) pre B Hf (app_ne _ _ _)) as (full & n0 & c & r & mk' & HK & Q & Hs & M & E).
  { eapply Forall_impl; [|exact Hst]. cbv beta. intros; lia. } { exact Hsafe. } { exact Hlf1. } { apply segs_stop, Hstop. }
  specialize (E n0 (Nat.le_refl n0)). fold s in E, M. destruct (parts_split F k chain full pa HP HK) as (p & rest & Ep & Kp & Kr & Dp).
  assert (X : exists it, finish n0 pa stk true full c (mkSt (pre ++ s) (List.concat (segs G lf ls) ++ tail) mk') = (Ok (KSingle p, it), mkSt (pre ++ s) (List.concat (segs G lf ls) ++ tail) mk') /\ elem_step stk k chain r (s, (p, it))).
  { unfold finish. cbv zeta. rewrite Ep. destruct rest as [|p2 rest]; [cbn [map] in Kr; congruence|]. eexists. split; [reflexivity|]. split; [exact Kp|]. split; [cbn [fst snd]; exact (Forall_inv Dp)|]. cbn [snd].
    match goal with |- context [nest _ _ _ c ?m true] => destruct (nest_chain (p2 :: rest) c m true ltac:(discriminate) (Forall_inv_tail Dp) (k_key p)) as [nm Hc]; exists (nest lf_trivia (p2 :: rest) (k_key p) c m true) end.
    eexists. exists nm, c. eexists. split; [reflexivity|]. rewrite Kr in Hc. split; [exact Hc|]. cbn [tm_super tm_trivia tm_name tm_aot tr_indent lf_trivia andb]. split; [reflexivity|]. split; [reflexivity|]. split; [discriminate|].
    split; [|apply shows_unwrap, Hs]. intros N. apply Bool.not_true_is_false. intros Z. apply in_stack_single in Z. rewrite Kp in Z. auto. }
  destruct X as (it & Ef & Es). exists ((s, (p, it)) :: steps), (r :: rs). split; [cbn [map segs fst]; rewrite Tx; reflexivity|]. split; [|split; constructor; assumption].
  cbn [runs]. unfold texts. rewrite Tx. split; [|exact R]. exists (S n0), mk'. split; [rewrite E; exact Ef|exact M].
Qed.
Lemma merge_step c p1 cc cm p ic im L nm c1 m1 nm' chain : chain_of (IAoT L (Some nm) true aot_trivia) chain cc -> chain_of (IAoT [(c1, m1)] (Some nm') true aot_trivia) chain ic ->
  c_parsed c = true -> k_dotted p1 = false -> k_dotted p = false -> k_key p = k_key p1 -> tm_super cm = Some true -> tr_indent (tm_trivia cm) = [] -> tm_name cm <> None -> tm_aot im = false -> tm_super im = Some true -> tm_name im <> None ->
  exists cc', chain_of (IAoT (aot_append L true aot_trivia (c1, m1)) (Some nm) true aot_trivia) chain cc' /\
    table_raw_append false (add_new c p1 (ITable cc cm)) (Some (KSingle p)) (ITable ic im) = Ok (add_new c p1 (ITable cc' cm)) /\
    cappend false (add_new c p1 (ITable cc cm)) (Some (KSingle p)) (ITable ic im) = Ok (add_new c p1 (ITable cc' cm)).
Proof.
  intros H H' Pc D D' Ek Sc Tc Nc Ai Si Ni. pose proof (add_map c p1 (ITable cc cm)) as Am. pose proof (chain_size _ _ _ H') as Sz. destruct c as [body m pp tks d]. cbn [c_parsed c_body] in *. subst pp. unfold add_new in *. cbn [c_map] in Am.
  destruct (merge_super L [(c1, m1)] nm nm' aot_trivia aot_trivia chain (merge_ok _ _ _ _ _ _ chain) body (map_set (k_key p1) (One (List.length body)) m) (tks ++ [k_key p1]) (d ++ [k_key p1]) p1 cc cm p ic im H H' D D' Ek Sc Tc Ai Si Ni Am) as (cc' & Hc & E).
  { apply last_last. } { destruct tks; discriminate. }
  exists cc'. split; [exact Hc|]. rewrite !name_same by (cbn; exact Nc). cbn [is_table] in *.
  assert (Fu : forall b, 3 * List.length chain + 4 <= app_fuel b (Some (KSingle p)) (ITable ic im)). { intros b. unfold app_fuel. cbn [isize]. lia. }
  split.
  - unfold table_raw_append. cbv zeta. rewrite E by apply Fu. cbn [rbind option_map key_parts c_map]. rewrite Ek, Am. reflexivity.
  - unfold cappend. apply E, Fu.
Qed.
Definition elems_are (L : list (container * tmeta)) (rs : list (list (str * pyv))) : Prop := map (fun x => sunwrap_cont (fst x)) L = map Some rs.
Lemma elems_unwrap L rs nm p t : elems_are L rs -> sunwrap (IAoT L nm p t) = Some (PList (map PDict rs)).
Proof.
  intros H. rewrite sunwrap_aot. replace (map (fun x : container * tmeta => option_map PDict (sunwrap_cont (fst x))) L) with (map (option_map PDict) (map (fun x : container * tmeta => sunwrap_cont (fst x)) L)) by (rewrite map_map; reflexivity).
  rewrite H, map_map. clear H. induction rs as [|r rs IH]; [reflexivity|]. cbn [map seqopt option_map] in *. destruct (seqopt _); cbn [option_map] in *; [injection IH as ->; reflexivity|discriminate].
Qed.
Lemma chain_adds stk k chain c p1 cm nm : c_parsed c = true -> k_dotted p1 = false -> k_key p1 = k -> tm_super cm = Some true -> tr_indent (tm_trivia cm) = [] -> tm_name cm <> None -> ~ single_in stk k ->
  forall rs' steps, Forall2 (elem_step stk k chain) rs' steps -> forall cc L rs, chain_of (IAoT L (Some nm) true aot_trivia) chain cc -> elems_are L rs ->
  exists cc' L', chain_of (IAoT L' (Some nm) true aot_trivia) chain cc' /\ elems_are L' (rs ++ rs') /\ adds steps (add_new c p1 (ITable cc cm)) (add_new c p1 (ITable cc' cm)).
Proof.
  intros Pc D1 K1 Sc Tc Nc Ns rs' steps F. induction F as [|r [s [p it]] rs' steps (Kp & Dp & ic & im & nm' & c1 & m1 & Ei & Hc & Si & Ti & Ni & Ai & U) F IH]; intros cc L rs H E.
  - exists cc, L. rewrite app_nil_r. split; [exact H|]. split; [exact E|]. split; reflexivity.
  - cbn [fst snd] in *. subst it. destruct (merge_step c p1 cc cm p ic im L nm c1 m1 nm' chain H Hc Pc D1 Dp ltac:(congruence) Sc Tc Nc (Ai Ns) Si Ni) as (cc1 & H1 & E1 & E2).
    destruct (IH cc1 (aot_append L true aot_trivia (c1, m1)) (rs ++ [r]) H1) as (cc' & L' & H' & El & [A1 A2]).
    { unfold elems_are in *. rewrite aot_append_map, E, map_app. cbn [map fst]. rewrite U. reflexivity. }
    exists cc', L'. split; [exact H'|]. split; [rewrite <- app_assoc in El; exact El|].
    split; cbn [fold_res fst snd]; [rewrite E1|rewrite E2]; cbn [rbind]; assumption.
Qed.
Lemma eqd_list ls rs : Forall2 eqd ls rs -> pyeq (PList (map PDict ls)) (PList (map PDict rs)).
Proof. intros H. constructor. induction H; constructor; assumption. Qed.
Lemma chain_entry_list F k chain pa pt stk lf tail pre kvs ls : parent_of F pa -> chain <> [] -> stack_ok (List.length F) stk -> (lf = [] \/ lf = [chLF]) -> stop (F ++ [k]) tail ->
  Forall (elem_fine stk) (kvs :: ls) -> (ls <> [] -> ~ single_in stk k) ->
  exists steps v', pyeq (wrap chain (PList (map PDict (kvs :: ls)))) v' /\ texts steps = List.concat (segs (F ++ k :: chain) lf (kvs :: ls)) /\ runs pa pt stk pre steps tail /\ Forall (headed F k) steps
    /\ (stk = [] -> Forall not_elem steps)
    /\ forall c r, shows c r -> ~ In k (map fst r) -> exists c', adds steps c c' /\ shows c' (r ++ [(k, v')]).
Proof.
  intros HP Nc Hst Hlf Hstop Fl Hn. destruct (chain_steps F k chain pa pt stk lf tail HP Nc Hst Hlf Hstop (kvs :: ls) Fl pre) as (steps & rs & Tx & R & Fe & F2).
  assert (Hd : Forall (headed F k) steps).
  { assert (G : Forall (fun s => exists aot ch r, s = hdr aot (F ++ k :: ch) ++ r) (map fst steps)).
    { rewrite Tx. clear. generalize (kvs :: ls). intros l. induction l as [|d l IH]; [constructor|]. cbn [segs]. constructor; [|exact IH]. destruct (seg_head (F ++ k :: chain) d) as [r ->]. exists true, chain. rewrite <- app_assoc. eauto. }
    clear -G. induction steps as [|s l IH]; [constructor|]. cbn [map] in G. apply Forall_cons_iff in G as [G1 G2]. constructor; [exact G1|auto]. }
  assert (Na : stk = [] -> Forall not_elem steps).
  { intros ->. clear -F2. induction F2 as [|d0 s ls0 l (_ & _ & ic & im & nm & c & m & Ei & _ & _ & _ & _ & Ai & _) F2 IH]; constructor; [|exact IH]. unfold not_elem. rewrite Ei. apply Ai. intros (z & [] & _). }
  exists steps, (wrap chain (PList (map PDict rs))). split; [apply wrap_eq, eqd_list, Fe|]. split; [unfold texts; rewrite Tx; reflexivity|]. split; [exact R|]. split; [exact Hd|]. split; [exact Na|].
  inversion Fe as [|? r1 ? rs1 E0 Fe1]; subst. inversion F2 as [|? [s1 [p1 it1]] ? steps1 E1 F3]; subst. destruct E1 as (Kp & Dp & ic & im & nm & c1 & m1 & Ei & Hc & Si & Ti & Ni & Ai & U). cbn [fst snd] in *. subst it1.
  assert (E1 : elems_are [(c1, m1)] [r1]) by (unfold elems_are; cbn [map fst]; rewrite U; reflexivity).
  intros c r Hs N. subst k.
  assert (X : exists cc' L', chain_of (IAoT L' (Some nm) true aot_trivia) chain cc' /\ elems_are L' ([r1] ++ rs1) /\ adds steps1 (add_new c p1 (ITable ic im)) (add_new c p1 (ITable cc' im))).
  { destruct ls as [|k2 ls].
    - inversion Fe1; subst. inversion F3; subst. exists ic, [(c1, m1)]. split; [exact Hc|]. split; [exact E1|]. split; reflexivity.
    - apply (chain_adds stk (k_key p1) chain c p1 im nm) with (L := [(c1, m1)]); auto; [apply Hs|]. apply Hn. discriminate. }
  destruct X as (cc' & L' & Hc' & El & A1 & A2). exists (add_new c p1 (ITable cc' im)).
  assert (U1 : sunwrap (ITable cc' im) = Some (wrap chain (PList (map PDict (r1 :: rs1))))) by (eapply chain_unwrap; [exact Hc'|]; apply elems_unwrap; exact El).
  assert (U0 : sunwrap (ITable ic im) = Some (wrap chain (PList (map PDict [r1])))) by (eapply chain_unwrap; [exact Hc|]; apply elems_unwrap; exact E1).
  destruct (adds_new c r (k_key p1) p1 (ITable ic im) _ Hs N eq_refl U0 s1) as [[B1 B2] _]. destruct (adds_new c r (k_key p1) p1 (ITable cc' im) _ Hs N eq_refl U1 s1) as [_ Hs'].
  split; [|exact Hs']. cbn [fold_res fst snd] in B1, B2. split; cbn [fold_res fst snd].
  - destruct (table_raw_append _ _ _ _); [|discriminate]. cbn [rbind] in *. injection B1 as ->. exact A1.
  - destruct (cappend _ _ _ _); [|discriminate]. cbn [rbind] in *. injection B2 as ->. exact A2.
Qed.
Lemma key_eqb_len K K' : key_eqb K K' = true -> List.length (key_parts K) = List.length (key_parts K').
Proof.
  destruct K as [x|xs s o], K' as [y|ys s' o']; cbn [key_eqb key_parts]; try discriminate; [reflexivity|]. intros H. apply skeys_eqb_map in H. apply (f_equal (@List.length str)) in H. rewrite !map_length in H. exact H.
Qed.
Lemma aot_elements G full stk lf tail : hkey G full -> stack_ok (List.length G) stk -> (lf = [] \/ lf = [chLF]) -> stop G tail ->
  forall ls, Forall (elem_fine (full :: stk)) ls -> forall pre payload mk, marked pre (List.concat (segs G lf ls) ++ tail) mk ->
  exists L rs n mk', elems_are L rs /\ Forall2 eqd ls rs /\ marked (pre ++ List.concat (segs G lf ls)) tail mk' /\
    aot_loop false n payload full (full :: stk) (mkSt pre (List.concat (segs G lf ls) ++ tail) mk) = (Ok (payload ++ L), mkSt (pre ++ List.concat (segs G lf ls)) tail mk').
Proof.
  intros HK Hst Hlf Hstop ls Fl. assert (Ne : G <> []) by (eapply hkey_ne; eauto).
  induction Fl as [|kvs ls (B & Hf & Hsafe) Fl IH]; intros pre payload mk M.
  - cbn [segs List.concat app] in *. rewrite app_nil_r. exists [], []. rewrite app_nil_r. destruct Hstop as [->|(a & Q & r & E & NQ & H)].
    + exists 1, mk. repeat split; [constructor|exact M].
    + exists (S (S (List.length (path_text Q)))), mk. split; [reflexivity|]. split; [constructor|]. split; [exact M|]. subst tail. destruct (peek_hdr a Q (S (List.length (path_text Q))) r pre mk NQ) as (K' & E & HK'); [lia|].
      remember (S (List.length (path_text Q))) as q eqn:Eq. clear Eq. cbn [aot_loop]. unfold bind at 1, endM, at_end. cbn [p_rest]. replace (match hdr a Q ++ r with [] => true | _ => false end) with false by (destruct (hdr_start a Q) as [z ->]; reflexivity).
      unfold bind at 1. rewrite E. cbn [fst snd]. replace (key_eqb K' full) with false; [rewrite andb_false_r; reflexivity|]. symmetry. apply Bool.not_true_is_false. intros Z. apply (hkey_eqb Q K' G full HK' HK) in Z. apply (H []). rewrite app_nil_r. exact Z.
  - set (lf1 := match ls with [] => lf | _ => blank (nonemptyb kvs) end) in *. assert (Hlf1 : lf1 = [] \/ lf1 = [chLF]) by (subst lf1; destruct ls; [exact Hlf|apply blank_ok]).
    cbn [segs List.concat] in *. fold lf1 in M |- *. set (s := snd (el G (PDict kvs)) ++ lf1) in *. rewrite <- app_assoc in M |- *.
    assert (Ns : exists t, s ++ List.concat (segs G lf ls) ++ tail = hdr true G ++ t). { subst s. destruct (seg_head G kvs) as [t ->]. rewrite <- !app_assoc. eauto. }
    destruct Ns as [t Ns].
    destruct M as [M|M]. { exfalso. rewrite Ns in M. destruct (hdr_start true G) as [z Ez]. rewrite Ez in M. discriminate. } subst mk.
    destruct (elem_run kvs G (Some full) (Some (key_string full)) (full :: stk) lf1 (List.concat (segs G lf ls) ++ tail) pre B Hf Ne) as (full2 & n0 & c & r & mk' & HK2 & Q & Hs & M & E).
    { constructor; [|exact Hst]. rewrite (hkey_length G full HK). lia. } { exact Hsafe. } { exact Hlf1. }
    { destruct ls as [|d ls']; [cbn [segs List.concat app]; rewrite <- (app_nil_r G); apply stop_stopb, Hstop|]. cbn [segs List.concat]. destruct (seg_head G d) as [z ->]. right. exists true, G. eexists. rewrite <- !app_assoc. split; [reflexivity|]. split; [exact Ne|].
      intros x Hx Z. apply Hx. rewrite <- (app_nil_r G) in Z at 1. apply app_inv_head in Z. auto. }
    fold s in E, M.
    assert (X : exists m, forall n, finish n (Some full) (full :: stk) true full2 c (mkSt (pre ++ s) (List.concat (segs G lf ls) ++ tail) mk') = (Ok (full2, ITable c m), mkSt (pre ++ s) (List.concat (segs G lf ls) ++ tail) mk')).
    { eexists. intros n. unfold finish. cbv zeta. rewrite skipn_all2 by (rewrite (hkey_length _ _ HK2), (hkey_length _ _ HK); lia).
      replace (key_eqb full2 full) with true by (symmetry; apply (hkey_eqb G full2 G full HK2 HK); reflexivity). reflexivity. }
    destruct X as [m X].
    destruct (IH (pre ++ s) (payload ++ [(c, m)]) mk' M) as (L & rs & n & mk2 & El & Fe & M2 & Ea).
    exists ((c, m) :: L), (r :: rs). set (q := S (List.length (path_text G))). exists (S (n + S n0 + q)), mk2. split; [unfold elems_are in *; cbn [map fst]; rewrite El, (shows_unwrap c r Hs); reflexivity|]. split; [constructor; [exact Q|exact Fe]|].
    rewrite <- app_assoc in M2, Ea. split; [exact M2|].
    destruct (peek_hdr true G (n + S n0 + q) t pre (List.length pre) Ne) as (K' & Ep & HK'). { subst q. lia. }
    cbn [aot_loop]. unfold bind at 1, endM, at_end. cbn [p_rest]. replace (match s ++ List.concat (segs G lf ls) ++ tail with [] => true | _ => false end) with false.
    2: { rewrite Ns. destruct (hdr_start true G) as [z Ez]. rewrite Ez. reflexivity. }
    unfold bind at 1. rewrite Ns, Ep, <- Ns. cbn [fst snd]. replace (key_eqb K' full) with true by (symmetry; apply (hkey_eqb G K' G full HK' HK); reflexivity). cbn [andb].
    unfold bind at 1. replace (n + S n0 + q) with (S (n + n0 + q)) by lia. rewrite E by lia. rewrite X. cbn [snd]. apply (aloop_up n (S (n + n0 + q))) in Ea; [|lia]. rewrite <- app_assoc in Ea. exact Ea.
Qed.
Lemma dict_list l : Forall (fun d => is_dict d = true) l -> exists ls, l = map PDict ls.
Proof. induction 1 as [|d l H F [ls ->]]; [exists []; reflexivity|]. destruct d; try discriminate. exists (l :: ls). reflexivity. Qed.
Definition BodyOf (v : pyv) : Prop := match v with PDict kvs => Body kvs | _ => True end.
Lemma list_safe stk (kvs : list (str * pyv)) l : (forall s, single_in stk s -> ~ In s (ebad (PList l))) -> tablish (PList l) = true -> In (PDict kvs) l -> safeb stk kvs.
Proof.
  intros H T I s Hs Hb. apply (H s Hs). cbn [ebad]. rewrite T. apply in_flat_map. exists (PDict kvs). split; [exact I|exact Hb].
Qed.
Lemma entry_list l : Forall BodyOf l -> Entry (PList l).
Proof.
  intros FB F k chain stk pa pt lf tail pre Hf T HP Hst Hsafe Hlf Hstop. destruct (tablish_list l T) as (d & ds & El & Fd). destruct (dict_list l Fd) as [ls' El']. destruct ls' as [|kvs ls]; [subst; discriminate|].
  pose proof (fine_list l Hf) as Fl. destruct Hsafe as [Sf Sc St].
  assert (Ef : Forall (fun kvs => Body kvs /\ py_fine (PDict kvs) /\ safeb stk kvs /\ In (PDict kvs) l) (kvs :: ls)).
  { apply Forall_forall. intros x Hx. assert (I : In (PDict x) l) by (rewrite El'; apply in_map, Hx). rewrite Forall_forall in FB, Fl. split; [apply (FB _ I)|]. split; [apply Fl, I|]. split; [eapply list_safe; eauto|exact I]. }
  rewrite ttext_list, El', elements_segs by discriminate. destruct chain as [|k1 chain].
  2: { apply chain_entry_list; auto; [discriminate| |].
    - eapply Forall_impl; [|exact Ef]. intros x (X1 & X2 & X3 & _). repeat split; assumption.
    - intros N. apply Sc. unfold mchain. rewrite El'. destruct ls as [|kvs2 ls]; [congruence|]. cbn [map multi]. rewrite El' in T. exact T. }
  cbn [wrap]. set (G := F ++ [k]) in *. assert (NG : G <> []) by (subst G; destruct F; discriminate). assert (LG : List.length G = S (List.length F)) by (subst G; rewrite app_length; cbn [List.length]; lia).
  inversion Ef as [|? ? (B & Hk & Hs & Hi) Ef']; subst x l0.
  set (lf1 := match ls with [] => lf | _ => blank (nonemptyb kvs) end) in *. assert (Hlf1 : lf1 = [] \/ lf1 = [chLF]) by (subst lf1; destruct ls; [exact Hlf|apply blank_ok]).
  assert (StG : stack_ok (List.length G) stk) by (eapply Forall_impl; [|exact Hst]; cbv beta; intros; lia).
  destruct (elem_run kvs G pa pt stk lf1 (List.concat (segs G lf ls) ++ tail) pre B Hk NG StG Hs Hlf1) as (full & n0 & c & r & mk' & HK & Q & Hsh & M & E). { apply segs_stop, Hstop. }
  destruct (parts_split F k [] full pa HP HK) as (p & rest & Ep & Kp & Kr & Dp). destruct rest; [|discriminate].
  set (s := snd (el G (PDict kvs)) ++ lf1) in *.
  assert (Fx : Forall (elem_fine (full :: stk)) ls).
  { apply Forall_forall. intros x Hx. rewrite Forall_forall in Ef'. destruct (Ef' x Hx) as (X1 & X2 & X3 & X4). split; [exact X1|]. split; [exact X2|]. intros z (sk & [Z|Z] & Ez).
    - destruct HK as [K1 _ K3]. rewrite Z in K1, K3. cbn [key_parts map] in K1. destruct F as [|f F]; [|destruct F; discriminate]. cbn [app] in G. subst G. cbn [app] in K1. injection K1 as K1. subst z. rewrite K1.
      specialize (St eq_refl eq_refl). rewrite El' in St. cbn [map] in St. rewrite Forall_forall in St. apply (St (PDict x)). apply in_map, Hx.
    - apply X3. exists sk. auto. }
  destruct (aot_elements G full stk lf tail HK StG Hlf Hstop ls Fx (pre ++ s) [(c, mkTM lf_trivia true (Some false) (Some (k_key p)) (Some (key_string full)))] mk' M) as (L & rs & n1 & mk2 & El2 & Fe & M2 & Ea).
  destruct (aot_make_map ((c, mkTM lf_trivia true (Some false) (Some (k_key p)) (Some (key_string full))) :: L) None true) as (L3 & Em & Mm).
  set (n := n0 + S n1).
  assert (X : finish n pa stk true full c (mkSt (pre ++ s) (List.concat (segs G lf ls) ++ tail) mk') = (Ok (KSingle p, IAoT L3 None true aot_trivia), mkSt ((pre ++ s) ++ List.concat (segs G lf ls)) tail mk2)).
  { unfold finish. cbv zeta. rewrite Ep. cbn [andb]. replace (match stk with [] => true | top :: _ => negb (key_eqb full top) end) with true.
    2: { destruct stk as [|top stk']; [reflexivity|]. symmetry. apply negb_true_iff, Bool.not_true_is_false. intros Z. apply key_eqb_len in Z. rewrite (hkey_length _ _ HK) in Z. apply Forall_inv in Hst. lia. }
    subst n. replace (n0 + S n1) with (S (n0 + n1)) by lia. unfold bind at 1. cbn [parse_aot]. unfold bind at 1. apply (aloop_up n1 (n0 + n1)) in Ea; [|lia]. rewrite Ea. unfold ret. cbn [app]. rewrite Em. reflexivity. }
  assert (U : sunwrap (IAoT L3 None true aot_trivia) = Some (PList (map PDict (r :: rs)))).
  { apply elems_unwrap. unfold elems_are in *. rewrite Mm. cbn [map fst]. rewrite El2, (shows_unwrap c r Hsh). reflexivity. }
  set (tx := List.concat (segs G lf (kvs :: ls))). assert (Et : tx = s ++ List.concat (segs G lf ls)) by reflexivity.
  exists [(tx, (p, IAoT L3 None true aot_trivia))], (PList (map PDict (r :: rs))). split; [apply eqd_list; constructor; [exact Q|exact Fe]|]. split; [unfold texts; cbn [map List.concat fst]; rewrite app_nil_r; reflexivity|].
  split; [|split; [|split]].
  - cbn [runs texts map List.concat]. split; [|exact I]. exists (S n), mk2. cbn [app]. rewrite Et, <- !app_assoc. specialize (E n ltac:(subst n; lia)). rewrite <- app_assoc in X, M2. split; [rewrite E; exact X|exact M2].
  - constructor; [|constructor]. exists true, []. cbn [fst]. rewrite Et. subst s. destruct (seg_head G kvs) as [z ->]. rewrite <- !app_assoc. eauto.
  - intros _. constructor; [exact I|constructor].
  - intros c0 r0 Hs0 N0. destruct (adds_new c0 r0 k p _ _ Hs0 N0 Kp U tx) as [A1 A2]. eauto.
Qed.
Lemma all_entries v : Entry v /\ BodyOf v.
Proof.
  induction v as [ | | | | | | |l IH|kvs IH] using pyv_rect2; try (split; [intros ? ? ? ? ? ? ? ? ? ? T; discriminate T|exact I]).
  - split; [|exact I]. apply entry_list. eapply Forall_impl; [|exact IH]. intros x [_ H]. exact H.
  - assert (B : Body kvs). { apply body_ok. eapply Forall_impl; [|exact IH]. intros x [H _]. exact H. }
    split; [|exact B]. destruct (superb (PDict kvs)) eqn:S0; [|apply entry_dict; assumption].
    destruct (superb_inv kvs S0) as (k & x & -> & T). apply Forall_inv in IH. apply entry_super; [apply IH|exact T].
Qed.
