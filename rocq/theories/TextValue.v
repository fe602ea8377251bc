(** TextValue: the text of values, key/value pairs and items is kept by a strict
    run of the parser. *)
From Verif Require Import Base Source Utils Items Container Arrays Parser Api Lemmas Escape Strings StringRT StringApi Numbers Reader Wf Text Render.
From Coq Require Import ZifyBool ZifyNat ZifyN.
Open Scope nat_scope.

(** ** Array groups *)
Definition elem_text (e : aelem) : str :=
  match e with EWs s => s | EComment t => comment_string t | EVal i => item_string i end.
Definition gwf (g : agroup item) : Prop := g_value g = None -> g_comma g = None /\ g_comment g = None.
Definition gstep (g : agroup item) (e : aelem) : agroup item :=
  match e with
  | EWs s => if inb chCOMMA s
             then mkGroup (g_indent g) (Some (match g_value g with Some v => v | None => INull end)) (Some s) (g_comment g)
             else mkGroup (Some s) None None None
  | EComment t => mkGroup (g_indent g) (Some (match g_value g with Some v => v | None => INull end)) (g_comma g) (Some t)
  | EVal i => match g_value g with
              | None => mkGroup (g_indent g) (Some i) (g_comma g) (g_comment g)
              | Some _ => mkGroup None (Some i) None None
              end
  end.
(** The element goes behind everything the group has. *)
Definition fits (g : agroup item) (e : aelem) : Prop :=
  match e with
  | EWs s => inb chCOMMA s = true -> g_comma g = None /\ g_comment g = None
  | EComment _ => g_comment g = None
  | EVal _ => True
  end.
Fixpoint fitsall (l : list aelem) (g : agroup item) : Prop :=
  match l with [] => True | e :: l' => fits g e /\ fitsall l' (gstep g e) end.
Definition glast (l : list aelem) (g : agroup item) : agroup item := fold_left gstep l g.
Lemma gstep_wf g e : gwf g -> gwf (gstep g e).
Proof. intros H. destruct e as [s|t|i]; cbn [gstep]; unfold gwf; cbn; try discriminate; [destruct (inb _ _); cbn; auto; discriminate|]. destruct (g_value g); cbn; discriminate. Qed.
Lemma fitsall_app l : forall g e, fitsall (l ++ [e]) g <-> fitsall l g /\ fits (glast l g) e.
Proof.
  induction l as [|x l IH]; intros g e; cbn [app fitsall glast fold_left]; [tauto|]. rewrite IH. unfold glast. tauto.
Qed.
Lemma glast_app l g e : glast (l ++ [e]) g = gstep (glast l g) e.
Proof. unfold glast. rewrite fold_left_app. reflexivity. Qed.
Lemma group_text l : forall g, gwf g -> fitsall l g -> flat_map gtext (group_loop l g) = gtext g ++ flat_map elem_text l.
Proof.
  induction l as [|e l IH]; intros g Hw Hf; cbn [group_loop flat_map]; [reflexivity|].
  destruct Hf as [Hf Hr]. pose proof (gstep_wf g e Hw) as Hw'. specialize (IH _ Hw' Hr). destruct e as [s|t|i]; cbn [gstep fits elem_text] in *.
  - destruct (inb chCOMMA s).
    + rewrite IH. destruct (Hf eq_refl) as [A B]. rewrite app_assoc. f_equal. unfold gtext. rewrite A, B. cbn [g_indent g_value g_comma g_comment opt_str].
      destruct (g_value g); cbn [opt_str item_string app]; rewrite ?app_nil_r, <- ?app_assoc; reflexivity.
    + cbn [flat_map]. rewrite IH. do 2 f_equal. unfold gtext. cbn. rewrite app_nil_r. reflexivity.
  - rewrite IH. rewrite app_assoc. f_equal. unfold gtext. rewrite Hf. cbn [g_indent g_value g_comma g_comment]. rewrite app_nil_r.
    destruct (g_value g); cbn [item_string]; rewrite <- ?app_assoc; reflexivity.
  - destruct (g_value g) eqn:Ev; [cbn [flat_map]; rewrite IH; do 2 f_equal; unfold gtext; cbn; rewrite app_nil_r; reflexivity|]. rewrite IH. rewrite app_assoc. f_equal. unfold gtext.
    destruct (Hw Ev) as [A B]. rewrite A, B, Ev. cbn [g_indent g_value g_comma g_comment opt_str]. rewrite !app_nil_r. reflexivity.
Qed.
Lemma filter_text l : flat_map gtext (filter g_bool l) = flat_map gtext l.
Proof.
  induction l as [|g l IH]; [reflexivity|]. cbn [filter flat_map]. destruct (g_bool g) eqn:E; [cbn [flat_map]; rewrite IH; reflexivity|].
  rewrite IH. destruct g as [[]  [] [] []]; try discriminate. reflexivity.
Qed.
Lemma group_values_text l : fitsall l empty_group -> flat_map gtext (group_values l) = flat_map elem_text l.
Proof. intros H. unfold group_values. rewrite filter_text, group_text; [reflexivity|intros _; split; reflexivity|exact H]. Qed.
Lemma array_string gs t : item_string (IArray gs t false) = [chLBR] ++ flat_map gtext gs ++ [chRBR].
Proof. cbn [item_string]. do 2 f_equal. apply flat_map_eq. intros [i v c m] _. reflexivity. Qed.

(** ** Inline tables *)
Definition ient (k : skey) (v : item) : str :=
  let t := item_trivia v in
  tr_indent t ++ k_orig k ++ (if k_dotted k then [chDOT] else []) ++ k_sep k ++ item_string v ++ tr_comment t ++ replace [chLF] [] (tr_trail t).
Definition istep (n : nat) (last : option nat) (new : bool) (acc : nat * str) (kv : option skey * item) : nat * str :=
  match acc, kv with
  | (i, buf), (k, v) =>
      match k with
      | None =>
          let buf := if Nat.eqb i (n - 1)
                     then if new then rstrip_p (fun c => ((c =? chCOMMA) || (c =? chSP))%N) buf
                          else rstrip_p (fun c => (c =? chCOMMA)%N) buf
                     else buf in
          (S i, buf ++ item_string v)
      | Some k =>
          let buf := buf ++ ient k v in
          let buf := match last with
                     | Some li => if Nat.ltb i li then buf ++ [chCOMMA] ++ (if new then [chSP] else []) else buf
                     | None => buf
                     end in
          (S i, buf)
      end
  end.
Lemma inline_string body m p tks d t new :
  item_string (IInline (Cont body m p tks d) t new)
  = snd (fold_left (istep (List.length body) (last_keyed body 0 None) new) body (0, [chLCB])) ++ [chRCB].
Proof. reflexivity. Qed.
Definition ctext (body : list (option skey * item)) : str :=
  flat_map (fun kv : option skey * item => match fst kv with Some k => ient k (snd kv) ++ [chCOMMA] | None => item_string (snd kv) end) body.
Definition spaces_entry (kv : option skey * item) : Prop := exists s f, kv = (None, IWs s f) /\ Forall (fun c => is_spaces c = true) s.
Lemma last_keyed_app a : forall b i acc, last_keyed (a ++ b) i acc = last_keyed b (i + List.length a) (last_keyed a i acc).
Proof.
  induction a as [|[k v] a IH]; intros b i acc; cbn [app last_keyed List.length]; [f_equal; lia|].
  destruct k; rewrite IH; f_equal; lia.
Qed.
Lemma last_keyed_ws w : Forall spaces_entry w -> forall i acc, last_keyed w i acc = acc.
Proof. induction 1 as [|kv w (s & f & -> & _) _ IH]; intros; cbn; auto. Qed.
Lemma rstrip_comma s : s = [] \/ lastc s -> rstrip_p (fun c => (c =? chCOMMA)%N) s = s.
Proof.
  intros [->|(a & c & -> & H)]; [reflexivity|]. unfold rstrip_p. rewrite rev_app_distr. cbn [rev app drop_while].
  apply N.eqb_neq in H. rewrite H. cbn [rev]. rewrite rev_involutive. reflexivity.
Qed.
Lemma spaces_lastc s : Forall (fun c => is_spaces c = true) s -> s = [] \/ lastc s.
Proof.
  intros H. destruct s as [|c s]; [left; reflexivity|]. right. apply lastc_all; [discriminate|]. eapply Forall_impl; [|exact H]. cbn. intros x Hx ->. discriminate.
Qed.
Lemma fold_ws n last w : Forall spaces_entry w -> forall i buf, lastc buf ->
  snd (fold_left (istep n last false) w (i, buf)) = buf ++ ctext w /\ lastc (buf ++ ctext w).
Proof.
  induction 1 as [|kv w (s & f & -> & Hs) _ IH]; intros i buf Hl; cbn [fold_left ctext flat_map]; [rewrite app_nil_r; auto|].
  cbn [istep fst snd item_string]. set (buf' := if Nat.eqb i (n - 1) then _ else buf). assert (E : buf' = buf).
  { unfold buf'. destruct (Nat.eqb i (n - 1)); [|reflexivity]. apply rstrip_comma. right. exact Hl. }
  clearbody buf'. subst buf'. destruct (IH (S i) (buf ++ s)) as [A B].
  - destruct (spaces_lastc s Hs) as [->|L]; [rewrite app_nil_r; exact Hl|apply lastc_app; exact L].
  - fold (ctext w). rewrite app_assoc. auto.
Qed.
Lemma fold_pre n li b0 : forall i buf, i + List.length b0 <= li -> S li <= n ->
  fold_left (istep n (Some li) false) b0 (i, buf) = (i + List.length b0, buf ++ ctext b0).
Proof.
  induction b0 as [|[k v] b0 IH]; intros i buf H1 H2; cbn [fold_left ctext flat_map List.length]; [rewrite app_nil_r, Nat.add_0_r; reflexivity|].
  cbn [List.length] in H1. destruct k as [k|]; cbn [istep fst snd].
  - replace (Nat.ltb i li) with true by (symmetry; apply Nat.ltb_lt; lia). rewrite IH by lia. fold (ctext b0). f_equal; [lia|].
    rewrite <- !app_assoc. reflexivity.
  - replace (Nat.eqb i (n - 1)) with false by (symmetry; apply Nat.eqb_neq; lia). rewrite IH by lia. fold (ctext b0). f_equal; [lia|].
    rewrite <- !app_assoc. reflexivity.
Qed.
Lemma inline_text_kv b0 k v w m p tks d t : lastc (ient k v) -> Forall spaces_entry w ->
  item_string (IInline (Cont (b0 ++ (Some k, v) :: w) m p tks d) t false) = [chLCB] ++ ctext b0 ++ ient k v ++ ctext w ++ [chRCB].
Proof.
  intros Hl Hw. rewrite inline_string. rewrite last_keyed_app. cbn [last_keyed]. rewrite last_keyed_ws by exact Hw. cbn [plus].
  rewrite fold_left_app, fold_pre; [|lia|rewrite app_length; cbn; lia]. cbn [fold_left istep plus]. rewrite Nat.ltb_irrefl.
  destruct (fold_ws (List.length (b0 ++ (Some k, v) :: w)) (Some (List.length b0)) w Hw (S (List.length b0)) (([chLCB] ++ ctext b0) ++ ient k v)) as [A _].
  - apply lastc_app. exact Hl.
  - rewrite A. rewrite <- !app_assoc. reflexivity.
Qed.
Lemma inline_text_ws w m p tks d t : Forall spaces_entry w -> item_string (IInline (Cont w m p tks d) t false) = [chLCB] ++ ctext w ++ [chRCB].
Proof.
  intros Hw. rewrite inline_string. destruct (fold_ws (List.length w) (last_keyed w 0 None) w Hw 0 [chLCB]) as [A _].
  - exists [], chLCB. split; [reflexivity|discriminate].
  - rewrite A, <- app_assoc. reflexivity.
Qed.

(** ** Dotted keys *)
Definition tail_text (it : item) : str := tr_cws (item_trivia it) ++ tr_comment (item_trivia it) ++ tr_trail (item_trivia it).
Definition kv_text (orig sep : str) (it : item) : str := tr_indent (item_trivia it) ++ orig ++ sep ++ item_string it ++ tail_text it.
Lemma etext_value pfx dot k it : value_item it ->
  etext pfx dot (Some k, it) = tr_indent (item_trivia it) ++ prefixed (if dot then pfx else None) (k_orig k) ++ k_sep k ++ item_string it ++ tail_text it.
Proof. intros H. destruct it; try contradiction; reflexivity. Qed.
Lemma dotted_head c nm k pfx : k_dotted k = true -> table_head c (super_meta nm) k pfx = [].
Proof. intros H. unfold table_head, table_is_super. cbn [super_meta tm_super negb orb]. rewrite H. cbn [negb]. rewrite andb_false_r. reflexivity. Qed.
Lemma origs_cons a l : l <> [] -> origs (a :: l) = k_orig a ++ [chDOT] ++ origs l.
Proof. destruct l; [congruence|reflexivity]. Qed.
Lemma dotted_render sep it : value_item it -> forall rest nm k pfx, rest <> [] -> k_dotted k = true ->
  render_table (dotted_table rest sep it) (super_meta nm) k pfx
  = tr_indent (item_trivia it) ++ prefixed pfx (k_orig k) ++ [chDOT] ++ origs rest ++ sep ++ item_string it ++ tail_text it.
Proof.
  intros Hv. induction rest as [|x rest IH]; intros nm k pfx Hr Hk; [congruence|].
  rewrite render_table_eq, dotted_head, Hk by exact Hk. cbn [app]. unfold table_key. cbn [super_meta tm_disp].
  destruct rest as [|y rest].
  - cbn [dotted_table singleton c_body]. rewrite btext_one, etext_value by exact Hv. cbn [prefixed set_sep k_orig k_sep origs map join].
    rewrite <- !app_assoc. reflexivity.
  - change (dotted_table (x :: y :: rest) sep it) with (singleton (set_dotted x) (ITable (dotted_table (y :: rest) sep it) (super_meta (Some (k_key x))))).
    cbn [singleton c_body]. rewrite btext_one. cbn [etext]. rewrite andb_false_r.
    rewrite IH; [|discriminate|reflexivity]. cbn [prefixed set_dotted k_orig]. rewrite (origs_cons x) by discriminate. rewrite <- !app_assoc. reflexivity.
Qed.
Lemma dotted_cont sep it rest : value_item it -> rest <> [] -> cont_string (dotted_table rest sep it) = kv_text (origs rest) sep it.
Proof.
  intros Hv Hr. rewrite cont_string_eq. unfold kv_text. destruct rest as [|x [|y rest]]; [congruence| |].
  - cbn [dotted_table singleton c_body]. rewrite btext_one, etext_value by exact Hv. reflexivity.
  - change (dotted_table (x :: y :: rest) sep it) with (singleton (set_dotted x) (ITable (dotted_table (y :: rest) sep it) (super_meta (Some (k_key x))))).
    cbn [singleton c_body]. rewrite btext_one. cbn [etext]. cbn [table_is_super super_meta tm_super set_dotted k_dotted negb andb].
    change (table_is_super _ _) with true. cbn [andb].
    rewrite dotted_render; [|exact Hv|discriminate|reflexivity]. cbn [prefixed set_dotted k_orig]. rewrite (origs_cons x) by discriminate. rewrite <- !app_assoc. reflexivity.
Qed.
(** The text of the entry made from a key and a value (top level of a table). *)
Lemma norm_text k it pfx : value_item it -> key_fresh k -> forall sep, 
  etext pfx false (norm_entry (Some (key_set_sep sep k)) it) = kv_text (key_string k) sep it.
Proof.
  intros Hv (F1 & F2 & F3 & F4) sep. unfold kv_text. destruct k as [k|ks s o].
  - cbn [key_set_sep norm_entry kstr]. rewrite set_name_text, etext_value by exact Hv. reflexivity.
  - cbn [key_set_sep norm_entry]. destruct ks as [|x [|y rest]]; cbn in F4; try lia. rewrite set_name_text. cbn [etext].
    change (table_is_super _ _) with true. cbn [set_dotted k_dotted negb andb].
    rewrite dotted_render; [|exact Hv|discriminate|reflexivity]. cbn [key_parts] in F1. rewrite F1. cbn [prefixed set_dotted k_orig].
    rewrite (origs_cons x) by discriminate. rewrite <- !app_assoc. reflexivity.
Qed.
(** ... and inside an inline table. *)
Lemma norm_ient k it sep : value_item it -> key_fresh k -> tr_indent (item_trivia it) = [] -> tail_text it = [] ->
  exists k', fst (norm_entry (Some (key_set_sep sep k)) it) = Some k' /\
  ient k' (snd (norm_entry (Some (key_set_sep sep k)) it)) = key_string k ++ sep ++ item_string it.
Proof.
  intros Hv (F1 & F2 & F3 & F4) Hi Ht. unfold tail_text in Ht. apply app_eq_nil in Ht as [T1 T2]. apply app_eq_nil in T2 as [T2 T3].
  destruct k as [k|ks s o].
  - cbn [key_set_sep norm_entry kstr fst snd]. eexists. split; [reflexivity|]. unfold ient.
    assert (E : set_name (k_key (set_sep sep k)) it = it) by (destruct it; try contradiction; reflexivity). rewrite E, Hi, T2, T3.
    cbn [set_sep k_orig k_dotted k_sep key_string]. cbn [key_parts] in F2. inversion F2 as [|? ? [D _] _]; subst. rewrite D.
    cbn [app]. replace (replace [chLF] [] []) with (@nil N) by reflexivity. rewrite !app_nil_r. reflexivity.
  - cbn [key_set_sep norm_entry]. destruct ks as [|x [|y rest]]; cbn in F4; try lia. cbn [fst snd]. eexists. split; [reflexivity|].
    unfold ient. cbn [set_name tm_name super_meta item_string]. rewrite dotted_cont; [|exact Hv|discriminate]. unfold kv_text, tail_text. rewrite Hi, T1, T2, T3.
    cbn [item_trivia tm_trivia tr_indent tr_comment tr_trail default_trivia app]. cbn [set_dotted k_orig k_dotted k_sep].
    cbn [key_parts] in F1, F2. inversion F2 as [|? ? [_ D] _]; subst. rewrite D. cbn [key_string] in *. rewrite F1.
    rewrite (origs_cons x) by discriminate. replace (replace [chLF] [] [chLF]) with (@nil N) by reflexivity. rewrite !app_nil_r, <- !app_assoc. reflexivity.
Qed.
