(** EditMore: comments, line breaks and indentation in a neat table (C43). *)
From Verif Require Import Base Source Utils Items Container Arrays Parser Api Lemmas Wf Errors Render Consist OMap ContOps ContText PyVal PyItem ItemConv DumpValue DumpText DumpCont DumpRender Grammar Denote Written Document Lines Edit Changes ListSpec Neat EditNeat MadeSnug MadeNeat EditOps.
From Coq Require Import ZifyBool ZifyNat ZifyN.
Open Scope nat_scope.

(** * A line without a key at the end *)
Lemma void_ok c i : ok_cont c -> is_void i -> ok_cont (add_void c i).
Proof.
  intros [c0 [M [F D]] P Fo] V. destruct c0 as [body m p tks d]. cbn [add_void c_body c_map c_dict c_parsed] in *. constructor; cbn [c_body c_map c_dict c_parsed]; [|exact P|].
  - split; [|split; [|exact D]]; cbn [c_body c_map c_dict].
    + intros k ci E. destruct (M k ci E) as (A & B & C). split; [exact A|]. split; [exact B|]. eapply Forall_impl; [|exact C]. intros j (sk & w & N & K & T). exists sk, w. split; [|split; assumption].
      rewrite nth_error_app1; [exact N|]. apply nth_error_Some. congruence.
    + intros j sk w N. destruct (Nat.lt_ge_cases j (List.length body)) as [Lt|Ge]; [rewrite nth_error_app1 in N by exact Lt; eapply F, N|].
      rewrite nth_error_app2 in N by exact Ge. destruct (j - List.length body) as [|q]; [discriminate|]. destruct q; discriminate.
  - apply Forall_app. split; [exact Fo|]. constructor; [|constructor]. cbn [snd]. apply oi_other. destruct i; try destruct V; reflexivity.
Qed.
Lemma void_append c i : is_void i -> i <> INull -> append (app_fuel c None i) Own false c None i true = Ok (add_void c i).
Proof.
  intros V N. destruct (app_fuel_pos c None i) as [n ->]. destruct c as [body m p tks d]. destruct i as [s [|]| | | | | | | ]; try destruct V; try reflexivity; exfalso; apply N; reflexivity.
Qed.
Lemma void_done m tops path pfx c b1 b2 d i o : ok_cont c -> c_body c = b1 ++ b2 -> nbody tops path pfx b1 b2 d -> is_void i -> i <> INull -> line_closed i ->
  (forall ind, Grammar.blanks ind -> voids (item_string (item_indent_insert ind i))) -> voids (item_string i) -> changed o d d ->
  exists c' b2', add_to m c None i = Ok c' /\ done (super_of m) tops path pfx b1 b2 d o c' b1 b2' d.
Proof.
  intros O B H V Nn Lc Vi Vo Ch.
  assert (X : exists c' i', add_to m c None i = Ok c' /\ ok_cont c' /\ c_body c' = c_body c ++ [(None, i')] /\ is_void i' /\ line_closed i' /\ voids (item_string i')).
  { assert (B1 : c_body (add_void c i) = c_body c ++ [(None, i)]) by (destruct c; reflexivity). pose proof (void_ok c i O V) as O1.
    destruct m as [m|]; cbn [add_to option_map]; [|rewrite void_append by assumption; exists (add_void c i), i; auto 8].
    unfold table_add. cbn [option_map]. cbv zeta. cbn [rbind]. rewrite void_append by assumption. cbn [rbind]. destruct (first_spaces _) as [ind|] eqn:Fs; [|exists (add_void c i), i; auto 8].
    rewrite B1, app_length. cbn [List.length]. replace (List.length (c_body c) + 1 - 1) with (List.length (c_body c)) by lia.
    assert (N1 : nth_error (c_body c ++ [(None, i)]) (List.length (c_body c)) = Some (None, i)) by (rewrite nth_error_app2, Nat.sub_diag by lia; reflexivity). rewrite N1.
    eexists _, (item_indent_insert ind i). split; [reflexivity|]. split; [|split; [|split; [|split]]].
    - rewrite <- B1. rewrite <- B1 in N1. eapply ok_set; [exact O1|exact N1| |]; unfold item_indent_insert; destruct i; try destruct V; try reflexivity; apply oi_other; reflexivity.
    - destruct c as [bd ? ? ? ?]. cbn [add_void set_body c_body] in *. apply set_middle.
    - destruct i; try destruct V; exact I.
    - destruct i; try destruct V; exact Lc.
    - apply Vi. eapply spaces_blanks, Fs. }
  destruct X as (c' & i' & E & O' & B' & V' & L' & Vt). exists c', (b2 ++ [(None, i')]). split; [exact E|]. split; auto.
  - rewrite B', B, <- app_assoc. reflexivity.
  - destruct H as [tops path pfx b1 b2 ps l H1 H2 Nd]. constructor; [exact H1| |exact Nd]. rewrite <- (app_nil_r l). apply ntables_app; [exact H2|]. apply nt_skip; [repeat split; assumption|exact Vt|constructor].
  - intros _ (e & I & K). exists e. split; [|exact K]. rewrite app_assoc. apply in_or_app. left. exact I.
Qed.
(** Text of a comment. *)
Definition comment_text (s : str) : Prop := Forall (fun c => ~ control_c c) s.
Lemma blank_free c : blank_c c -> ~ control_c c.
Proof. intros [->| ->] [X|[X Y]]; try discriminate X; [apply X; reflexivity|apply Y; reflexivity]. Qed.
Lemma remark_eol s ind : comment_text s -> Grammar.blanks ind -> eol (ind ++ (L "# " ++ s) ++ [chLF]).
Proof.
  intros T I. exists ind, (L "# " ++ s), [10%N]. split; [reflexivity|]. split; [exact I|]. split; [right|left; reflexivity]. exists (32%N :: s). split; [reflexivity|]. constructor; [apply blank_free; left; reflexivity|exact T].
Qed.
Lemma eol_void t : eol t -> voids t.
Proof. intros H. rewrite <- (app_nil_r t). constructor; [exact H|constructor]. Qed.
Lemma remark_done m tops path pfx c b1 b2 d s : ok_cont c -> c_body c = b1 ++ b2 -> nbody tops path pfx b1 b2 d -> comment_text s ->
  exists c' b2', apply_op m c (ERemark s) = Ok c' /\ done (super_of m) tops path pfx b1 b2 d (ERemark s) c' b1 b2' d.
Proof.
  intros O B H T. apply void_done; auto; try exact I; [discriminate|reflexivity| | |constructor].
  - intros ind Hi. apply eol_void. unfold item_indent_insert, comment_item. cbn [is_wsitem set_trivia item_trivia item_string with_indent tr_indent tr_comment tr_trail indent_insert take_while drop_while app]. rewrite app_nil_r. apply (remark_eol s ind T Hi).
  - apply eol_void. apply (remark_eol s [] T). constructor.
Qed.
Lemma newline_done m tops path pfx c b1 b2 d : ok_cont c -> c_body c = b1 ++ b2 -> nbody tops path pfx b1 b2 d ->
  exists c' b2', apply_op m c ENewline = Ok c' /\ done (super_of m) tops path pfx b1 b2 d ENewline c' b1 b2' d.
Proof.
  intros O B H. assert (Y : voids [chLF]) by (apply lines_voids; repeat constructor). apply void_done; auto; try exact I; [discriminate|]. constructor.
Qed.

(** * A new key *)
Lemma absent_map c k : consistent c -> ~ In k (c_dict c) -> map_get k (c_map c) = None.
Proof. intros C L. destruct (map_get k (c_map c)) eqn:E; [|reflexivity]. exfalso. apply L, (consistent_dict c k C). congruence. Qed.
Lemma add_set m c k v : consistent c -> ~ In k (c_dict c) -> apply_op m c (EAdd k v) = apply_op m c (ESet k v).
Proof.
  intros C L. pose proof (absent_map c k C L) as M. cbn [apply_op]. destruct m as [m|]; destruct (py_item _ v) as [it|e]; cbn [rbind]; try reflexivity.
  - cbn [add_to]. unfold table_add, table_set, set_item. cbn [option_map]. cbv zeta. destruct (app_fuel_pos c (Some (KSingle (skey_of_str k))) it) as [n ->].
    assert (Co : contains (S (S (S n))) c k = Ok false) by (cbn [contains]; rewrite M; reflexivity). rewrite Co. cbn [rbind]. destruct (append _ _ _ c _ it true) as [c'|]; cbn [rbind]; [|reflexivity].
    destruct (first_spaces _); [|reflexivity]. destruct (map_get k (c_map c')) as [[i|]|]; reflexivity.
  - cbn [add_to]. unfold set_item. cbn [option_map]. cbv zeta. destruct (app_fuel_pos c (Some (KSingle (skey_of_str k))) it) as [n ->].
    assert (Co : contains (S (S (S n))) c k = Ok false) by (cbn [contains]; rewrite M; reflexivity). rewrite Co. reflexivity.
Qed.
Lemma add_changed k v d d' : ~ In k (map fst d) -> changed (ESet k v) d d' -> changed (EAdd k v) d d'.
Proof. intros N H. inversion H; subst; [constructor; assumption|]. exfalso. apply N. rewrite map_app. apply in_or_app. right. left. reflexivity. Qed.

(** * Another item with the same text of the value *)
Lemma nlines_line x e e' y l l2 : nlines l (x ++ e :: y) l2 -> (forall o, nline e o -> nline e' o) -> nlines l (x ++ e' :: y) l2.
Proof.
  intros H G. destruct (nlines_cut _ _ _ _ H) as (l1 & A & B). eapply nlines_app; [exact A|]. inversion B as [|? ? ? ? He Hr|? names v ? ? ? ? He Hp Hr]; subst; [eapply ns_void|eapply ns_pair]; eauto.
Qed.
Lemma retrivia_line sk it v t : nline (Some sk, it) (Some ([k_key sk], v)) -> plain it -> tidy t -> nline (Some sk, set_trivia t it) (Some ([k_key sk], v)).
Proof.
  intros H P T. inversion H as [|sk' it' x Pl Dn Kd N Sp T0 St|]; subst; [|destruct P]. constructor; [apply plain_set_trivia, P|apply Snug.snug_trivia; assumption|exact Kd|exact N|exact Sp|rewrite plain_set_back by exact P; exact T|].
  intros u. rewrite St. destruct it; try destruct P; apply St.
Qed.
Lemma plain_tidy sk it o : nline (Some sk, it) o -> plain it -> tidy (item_trivia it) /\ exists v, o = Some ([k_key sk], v).
Proof. intros H P. inversion H; subst; [eauto|destruct P]. Qed.
Lemma line_done super tops path pfx c b1 b2 d i sk it f o : ok_cont c -> c_body c = b1 ++ b2 -> nbody tops path pfx b1 b2 d -> nth_error (c_body c) i = Some (Some sk, it) -> plain it ->
  (tidy (item_trivia it) -> tidy (f (item_trivia it))) -> changed o d d ->
  exists b1', done super tops path pfx b1 b2 d o (set_body (list_set i (Some sk, set_trivia (f (item_trivia it)) it) (c_body c)) c) b1' b2 d.
Proof.
  intros O B H N P Ft Ch. pose proof N as N'. rewrite B in N'. destruct (plain_before _ _ _ _ _ _ _ _ H N' P) as (x & y & -> & ->). set (it' := set_trivia (f (item_trivia it)) it).
  exists (x ++ (Some sk, it') :: y). split; auto.
  - eapply ok_set; [exact O|exact N| |]; [destruct it; try destruct P; reflexivity|]. apply oi_other, plain_not_table, plain_set_trivia, P.
  - destruct c as [bd ? ? ? ?]. cbn [set_body c_body] in *. rewrite B, <- !app_assoc. cbn [app]. rewrite set_middle. reflexivity.
  - inversion H as [tp pt pf q1 q2 ps l H1 H2 Nd]; subst. constructor; [|exact H2|exact Nd]. eapply nlines_line; [exact H1|]. intros o0 Ho. destruct (plain_tidy _ _ _ Ho P) as [T [v ->]]. apply retrivia_line; auto.
  - intros Fb. eapply bare_part; [exact Fb|apply plain_set_trivia, P].
  - intros _ _. exists (Some sk, it'). split; [apply in_or_app; left; apply in_or_app; right; left; reflexivity|discriminate].
Qed.
Lemma tab_done super tops path pfx c b1 b2 d i sk it it' o : ok_cont c -> c_body c = b1 ++ b2 -> nbody tops path pfx b1 b2 d -> nth_error (c_body c) i = Some (Some sk, it) -> k_dotted sk = false -> is_table_or_aot it = true ->
  is_table it' = is_table it -> ok_item it' -> (forall v, ntable tops path pfx sk it v -> ntable tops path pfx sk it' v) -> changed o d d ->
  exists b2', done super tops path pfx b1 b2 d o (set_body (list_set i (Some sk, it') (c_body c)) c) b1 b2' d.
Proof.
  intros O B H N Kd T T' Oi Nt Ch. pose proof N as N'. rewrite B in N'. destruct (table_place _ _ _ _ _ _ _ _ _ H N' Kd T) as (x & y & a & v & b & -> & -> & Ed & Na & Nv & Re).
  exists (x ++ (Some sk, it') :: y). split; auto.
  - eapply ok_set; eassumption.
  - destruct c as [bd ? ? ? ?]. cbn [set_body c_body] in *. rewrite B, app_assoc, set_middle, <- app_assoc. reflexivity.
  - rewrite Ed. apply Re, Nt, Nv.
  - intros _ _. exists (Some sk, it'). split; [apply in_or_app; right; apply in_or_app; right; left; reflexivity|discriminate].
Qed.

(** * A comment on a line *)
(** White space before a leading "#" is blank. *)
Definition note_text (s : str) : Prop := comment_text s /\ forall a r, s = a ++ 35%N :: r -> Forall (fun c => py_isspace c = true) a -> Grammar.blanks a.
Lemma lstrip_split p s : exists a, s = a ++ lstrip_p p s /\ Forall (fun c => p c = true) a.
Proof.
  induction s as [|c s (a & E & F)]; [exists []; split; [reflexivity|constructor]|]. unfold lstrip_p in *. cbn [drop_while]. destruct (p c) eqn:Ep; [|exists []; split; [reflexivity|constructor]].
  exists (c :: a). split; [cbn [app]; f_equal; exact E|constructor; assumption].
Qed.
Lemma rstrip_split p s : exists b, s = rstrip_p p s ++ b.
Proof.
  unfold rstrip_p. destruct (lstrip_split p (rev s)) as (a & E & _). exists (rev a). unfold lstrip_p in E. rewrite <- rev_app_distr, <- E, rev_involutive. reflexivity.
Qed.
Lemma note_eol s t : note_text s -> eol t -> eol ([chSP] ++ (if startswith [chHASH] (Base.strip s) then s else L "# " ++ s) ++ t).
Proof.
  intros [T Hs] (b & c & e & -> & Hb & Hc & He). assert (Fc : Forall (fun c => ~ control_c c) (b ++ c)).
  { apply Forall_app. split; [eapply Forall_impl; [|exact Hb]; intros x; apply blank_free|]. destruct Hc as [->|(u & -> & Hu)]; [constructor|]. constructor; [|exact Hu]. intros [X|[X _]]; [discriminate X|exfalso; apply X; reflexivity]. }
  destruct (startswith [chHASH] (Base.strip s)) eqn:E.
  - unfold Base.strip in E. destruct (lstrip_split py_isspace s) as (a & Ea & Fa). destruct (rstrip_split py_isspace (lstrip_p py_isspace s)) as [z Ez]. destruct (rstrip_p _ _) as [|x r]; [discriminate E|]. cbn [startswith] in E. rewrite andb_true_r in E. apply N.eqb_eq in E. subst x.
    rewrite Ez in Ea. cbn [app] in Ea. pose proof (Hs a (r ++ z) Ea Fa) as Ba. exists ([chSP] ++ a), (35%N :: (r ++ z) ++ b ++ c), e. split; [rewrite Ea, <- !app_assoc; cbn [app]; rewrite <- !app_assoc; reflexivity|].
    split; [apply Forall_app; split; [constructor; [left; reflexivity|constructor]|exact Ba]|]. split; [right|exact He]. eexists. split; [reflexivity|]. apply Forall_app. split; [|exact Fc].
    unfold comment_text in T. rewrite Ea in T. apply Forall_app in T as [_ T]. inversion T; assumption.
  - exists [chSP], (35%N :: (32%N :: s) ++ b ++ c), e. split; [rewrite <- !app_assoc; cbn [app]; rewrite <- !app_assoc; reflexivity|]. split; [constructor; [left; reflexivity|constructor]|]. split; [right|exact He].
    eexists. split; [reflexivity|]. apply Forall_app. split; [|exact Fc]. constructor; [apply blank_free; left; reflexivity|exact T].
Qed.
Lemma note_tidy s t : note_text s -> tidy t -> tidy (note_trivia s t).
Proof. intros H (A & _ & C). split; [exact A|]. split; [apply (note_eol s (tr_trail t) H C)|exact C]. Qed.
Lemma note_tidyh s t : note_text s -> tidyh t -> tidyh (note_trivia s t).
Proof. intros H (A & _ & C). split; [exact A|]. split; [apply (note_eol s (tr_trail t) H C)|exact C]. Qed.
Lemma ntable_trivia tops path pfx sk it v f : (tidyh (item_trivia it) -> tidyh (f (item_trivia it))) -> ntable tops path pfx sk it v -> ntable tops path pfx sk (set_trivia (f (item_trivia it)) it) v.
Proof.
  intros Hf H. destruct H as [tops path pfx sk c m b1 b2 d H1 H2 H3 H4 H5 H6 H7 H8 H9|tops path pfx sk c m l H1 H2 H3 H4 H5 H6 H7 H8 H9 H10|tops path pfx sk L n p t ds H1 H2 H3]; cbn [set_trivia item_trivia] in *.
  - destruct m as [tr ao su nm di]. eapply nt_shown; eauto.
  - destruct m as [tr ao su nm di]. eapply nt_hidden; eauto.
  - apply nt_aot; assumption.
Qed.
Lemma ok_trivia t i : ok_item i -> ok_item (set_trivia t i).
Proof. intros H. destruct H as [c m H|l n p u H|i T]; cbn [set_trivia]; [constructor; exact H|constructor; exact H|]. apply oi_other. destruct i; try discriminate T; reflexivity. Qed.
(** What [t[k]] is, for [t[k].comment] and [t[k].indent]. *)
Definition method_at (c : container) (k : str) : Prop :=
  (plain_at c k /\ forall b t, get_item c k <> Some (IVal (SBool b) t)) \/ dict_at c k \/ exists l, array_at c k l.
Lemma on_item_done super tops path pfx c b1 b2 d k f o : ok_cont c -> c_body c = b1 ++ b2 -> nbody tops path pfx b1 b2 d -> method_at c k ->
  (forall it, plain it -> exists g, f it = set_trivia (g (item_trivia it)) it /\ (tidy (item_trivia it) -> tidy (g (item_trivia it)))) ->
  (forall it, is_table_or_aot it = true -> is_table (f it) = is_table it /\ (ok_item it -> ok_item (f it)) /\ forall sk v, ok_item it -> ntable tops path pfx sk it v -> ntable tops path pfx sk (f it) v) -> (In k (map fst d) -> changed o d d) ->
  exists c' b1' b2', on_item c k f = Ok c' /\ done super tops path pfx b1 b2 d o c' b1' b2' d.
Proof.
  intros O B H A Hp Ht Hc. destruct (ok_parts c O) as (C & _ & _). unfold on_item.
  assert (X : exists i sk it, map_get k (c_map c) = Some (One i) /\ nth_error (c_body c) i = Some (Some sk, it) /\ k_key sk = k /\ (forall b t, it <> IVal (SBool b) t) /\ (plain it \/ (is_table_or_aot it = true /\ k_dotted sk = false))).
  { destruct A as [[A Nb]|[A|[l A]]].
    - destruct (get_plain c k C A) as (i & sk & it & M & N & K & P). exists i, sk, it. repeat (split; [assumption|]). split; [|left; exact P]. intros b t ->. apply (Nb b t). unfold get_item. rewrite M, N. reflexivity.
    - destruct (get_dict c k C A) as (i & sk & it & M & N & K & Kd & T). exists i, sk, it. repeat (split; [assumption|]). split; [intros b t ->; discriminate T|right]. split; [destruct it; try discriminate T; reflexivity|exact Kd].
    - destruct (get_array _ _ _ _ _ _ _ _ _ O B H A) as (i & sk & n & q & t & M & N & K & Kd). exists i, sk, (IAoT l n q t). repeat (split; [assumption|]). split; [discriminate|right]. split; [reflexivity|exact Kd]. }
  destruct X as (i & sk & it & M & N & K & Nb & P). rewrite M, N.
  assert (Ch : changed o d d). { apply Hc. rewrite (nbody_keys _ _ _ _ _ _ H), <- B. exists (Some sk, it). split; [eapply nth_error_In, N|exists sk; auto]. }
  assert (E : (match it with IVal (SBool _) _ => Err AttributeErrorE | _ => Ok (set_body (list_set i (Some sk, f it) (c_body c)) c) end) = Ok (set_body (list_set i (Some sk, f it) (c_body c)) c)).
  { destruct it as [ | | |[ | |b| | | | ] t| | | | ]; try reflexivity. exfalso. eapply Nb. reflexivity. }
  destruct P as [P|[T Kd]].
  - destruct (Hp it P) as (g & Eg & Hg). destruct (line_done super tops path pfx c b1 b2 d i sk it g o O B H N P Hg Ch) as (b1' & Dn). rewrite <- Eg in Dn. eexists _, b1', b2. split; [exact E|exact Dn].
  - destruct (Ht it T) as (T1 & T2 & T3). pose proof (ok_in c i _ O N) as Oi. cbn [snd] in Oi. destruct (tab_done super tops path pfx c b1 b2 d i sk it (f it) o O B H N Kd T T1 (T2 Oi)) as (b2' & Dn); [intros v; apply T3, Oi|exact Ch|].
    eexists _, b1, b2'. split; [exact E|exact Dn].
Qed.
Lemma note_done m tops path pfx c b1 b2 d k s : ok_cont c -> c_body c = b1 ++ b2 -> nbody tops path pfx b1 b2 d -> method_at c k -> note_text s ->
  exists c' b1' b2', apply_op m c (ENote k s) = Ok c' /\ done (super_of m) tops path pfx b1 b2 d (ENote k s) c' b1' b2' d.
Proof.
  intros O B H A T. apply on_item_done; auto.
  - intros it _. exists (note_trivia s). split; [reflexivity|apply note_tidy, T].
  - intros it Ti. split; [destruct it; try discriminate Ti; reflexivity|]. split; [apply ok_trivia|]. intros sk v _. apply ntable_trivia, note_tidyh, T.
  - apply ch_note.
Qed.

(** * Indentation *)
Definition push (ind : str) (e : entry) : entry :=
  (fst e, if is_wsitem (snd e) then snd e else set_trivia (with_indent (ind ++ tr_indent (item_trivia (snd e))) (item_trivia (snd e))) (snd e)).
Lemma push_text sk c m pfx ind : Grammar.blanks ind -> k_dotted sk = true -> table_is_super c m = true -> tr_indent (tm_trivia m) <> [10%N] ->
  Render.etext pfx false (push ind (Some sk, ITable c m)) = Render.etext pfx false (Some sk, ITable c m).
Proof.
  intros Bi Kd Su Ti. unfold push. cbn [fst snd is_wsitem set_trivia item_trivia]. destruct m as [tr ao su nm di]. unfold set_tm_trivia in *. cbn [tm_trivia tm_aot tm_super tm_name tm_disp] in *. cbn [Render.etext].
  replace (table_is_super c (mkTM (with_indent (ind ++ tr_indent tr) tr) ao su nm di)) with (table_is_super c (mkTM tr ao su nm di)) by reflexivity. rewrite Su, Kd. cbn [andb negb].
  rewrite !render_table_eq. unfold table_head. replace (table_is_super c (mkTM (with_indent (ind ++ tr_indent tr) tr) ao su nm di)) with (table_is_super c (mkTM tr ao su nm di)) by reflexivity. rewrite Su, Kd. cbn [negb orb andb]. rewrite andb_false_r. cbn [tm_trivia with_indent tr_indent].
  f_equal. assert (N : tr_indent tr <> [chLF]) by exact Ti. destruct (str_eqb (tr_indent tr) [chLF]) eqn:E1; [apply str_eqb_eq in E1; contradiction|].
  destruct (str_eqb (ind ++ tr_indent tr) [chLF]) eqn:E2; [|reflexivity]. exfalso. apply str_eqb_eq in E2. destruct ind as [|a ind]; [contradiction|]. cbn [app] in E2. inversion E2; subst. inversion Bi as [|? ? [X|X] _]; discriminate X.
Qed.
Lemma push_tidy ind t : Grammar.blanks ind -> tidy t -> tidy (with_indent (ind ++ tr_indent t) t).
Proof. intros Bi (A & R). split; [|exact R]. apply Forall_app. split; assumption. Qed.
Lemma push_tidyh ind t : Grammar.blanks ind -> tidyh t -> tidyh (with_indent (ind ++ tr_indent t) t).
Proof. intros Bi (A & R). split; [|exact R]. apply Forall_app. split; [|exact A]. eapply Forall_impl; [|exact Bi]. intros c H. right. exact H. Qed.
Lemma blank_voids ind w : Grammar.blanks ind -> voids w -> w <> [] -> voids (ind ++ w).
Proof.
  intros Bi [|t u (b & c & e & -> & Hb & R) U] N; [contradiction|]. rewrite app_assoc. constructor; [|exact U]. exists (ind ++ b), c, e. rewrite <- app_assoc. split; [reflexivity|]. split; [apply Forall_app; split; assumption|exact R].
Qed.
Lemma push_void ind e : Grammar.blanks ind -> is_void (snd e) -> line_closed (snd e) -> voids (item_string (snd e)) -> is_void (snd (push ind e)) /\ line_closed (snd (push ind e)) /\ voids (item_string (snd (push ind e))).
Proof.
  intros Bi V Lc Vo. destruct e as [k i]. cbn [push fst snd] in *. destruct i as [s f|t| | | | | | ]; try destruct V; cbn [is_wsitem set_trivia item_trivia]; try (repeat split; assumption).
  split; [exact I|]. split; [exact Lc|]. cbn [item_string with_indent tr_indent tr_comment tr_trail] in *. unfold comment_string in *. cbn [with_indent tr_indent tr_comment tr_trail]. match goal with |- voids ?x => replace x with (ind ++ (tr_indent t ++ tr_comment t ++ tr_trail t)) by (rewrite <- ?app_assoc; reflexivity) end. apply blank_voids; [exact Bi|exact Vo|]. intros X. apply app_eq_nil in X as [_ X]. apply app_eq_nil in X as [_ X]. cbn [line_closed] in Lc. rewrite X in Lc. discriminate.
Qed.
Lemma push_line ind e o : Grammar.blanks ind -> nline e o -> nline (push ind e) o.
Proof.
  intros Bi H. pose proof H as H0. inversion H as [i Hi V Hc|sk it v P D Kd N Sp T St|sk c m ns v a k s w t Kd Tr Ti Su Ne Et Ep Ha Hk Hs D Ht Dn]; subst.
  - destruct (push_void ind (None, i) Bi Hi Hc V) as (X1 & X2 & X3). apply nl_void; assumption.
  - unfold push. cbn [fst snd]. replace (is_wsitem it) with false by (destruct it; try destruct P; reflexivity). apply retrivia_line; [exact H0|exact P|apply push_tidy; assumption].
  - pose proof (fun pfx => push_text sk c m pfx ind Bi Kd Su Ti) as Tx. unfold push in *. cbn [fst snd is_wsitem set_trivia item_trivia] in *. destruct m as [tr ao su nm di]. unfold set_tm_trivia in *. cbn [tm_trivia tm_aot tm_super tm_name tm_disp] in *.
    apply (nl_dotted sk c _ ns v a k s w t); auto; [|rewrite Tx; exact Et|intros pfx; rewrite !Tx; apply Ep|exact (Lines.dent_trivia _ _ _ _ _ Dn)]. cbn [tm_trivia with_indent tr_indent]. intros X. destruct ind as [|b ind]; [contradiction|]. cbn [app] in X. inversion X; subst. inversion Bi as [|? ? [Y|Y] _]; discriminate Y.
Qed.
Lemma push_lines ind l es l2 : Grammar.blanks ind -> nlines l es l2 -> nlines l (map (push ind) es) l2.
Proof. intros Bi. induction 1 as [l|e es l l2 H _ IH|e names v es l l1 l2 H P _ IH]; cbn [map]; [constructor|eapply ns_void|eapply ns_pair]; eauto using push_line. Qed.
Lemma push_table tops path pfx sk it v ind : Grammar.blanks ind -> ntable tops path pfx sk it v -> ntable tops path pfx sk (snd (push ind (Some sk, it))) v.
Proof.
  intros Bi H. unfold push. cbn [fst snd]. replace (is_wsitem it) with false by (destruct H; reflexivity). apply (ntable_trivia tops path pfx sk it v (fun t => with_indent (ind ++ tr_indent t) t)); [|exact H]. apply push_tidyh, Bi.
Qed.
Lemma push_tables tops path pfx es l ind : Grammar.blanks ind -> ntables tops path pfx es l -> ntables tops path pfx (map (push ind) es) l.
Proof.
  intros Bi. induction 1 as [|tops path pfx e es l (K & V & Lc) Hv _ IH|tops path pfx sk it v es l H _ IH]; cbn [map]; [constructor| |].
  - destruct (push_void ind e Bi V Lc Hv) as (X1 & X2 & X3). apply nt_skip; [|exact X3|exact IH]. split; [exact K|]. split; assumption.
  - apply (nt_cons tops path pfx sk (snd (push ind (Some sk, it)))); [apply push_table; assumption|exact IH].
Qed.
Lemma push_key ind e : fst (push ind e) = fst e.
Proof. reflexivity. Qed.
Lemma push_is ind e : is_table (snd (push ind e)) = is_table (snd e) /\ is_aot (snd (push ind e)) = is_aot (snd e) /\ is_wsitem (snd (push ind e)) = is_wsitem (snd e) /\ is_null (snd (push ind e)) = is_null (snd e).
Proof. destruct e as [k i]. destruct i; auto. Qed.
Lemma push_has ind es : has_plain (map (push ind) es) = has_plain es.
Proof. unfold has_plain. induction es as [|e es IH]; [reflexivity|]. cbn [map existsb]. rewrite IH. destruct (push_is ind e) as (P1 & P2 & P3 & P4). destruct (push ind e) as [k1 i1], e as [k2 i2]. cbn [snd] in *. unfold is_table_or_aot. rewrite P1, P2, P3, P4. reflexivity. Qed.
Lemma push_super c m m' ind : tm_super m' = tm_super m -> table_is_super (set_body (map (push ind) (c_body c)) c) m' = table_is_super c m.
Proof.
  intros E. unfold table_is_super. rewrite E. destruct (tm_super m); [reflexivity|]. destruct c as [body mp p tks d]. cbn [set_body c_body c_dict c_map]. destruct d as [|k [|? ?]]; try reflexivity. destruct (map_get k mp) as [[i|]|]; try reflexivity.
  rewrite nth_error_map. destruct (nth_error body i) as [e|]; cbn [option_map]; [|reflexivity]. destruct (push_is ind e) as (P1 & P2 & _). destruct (push ind e) as [k1 i1], e as [k2 i2]. cbn [snd] in *. unfold is_table_or_aot. rewrite P1, P2. reflexivity.
Qed.
Lemma push_ok c ind : ok_cont c -> ok_cont (set_body (map (push ind) (c_body c)) c).
Proof.
  intros [c0 [M [F D]] P Fo]. destruct c0 as [body m p tks d]. cbn [set_body c_body c_map c_dict c_parsed] in *. constructor; cbn [set_body c_body c_map c_dict c_parsed]; [|exact P|].
  - split; [|split; [|exact D]]; cbn [c_body c_map c_dict].
    + intros k ci E. destruct (M k ci E) as (A & B & C). split; [exact A|]. split; [exact B|]. eapply Forall_impl; [|exact C]. intros j (sk & w & N & K & T). exists sk, (snd (push ind (Some sk, w))). split; [rewrite nth_error_map, N; reflexivity|]. split; [exact K|].
      intros X. rewrite (proj1 (push_is ind (Some sk, w))). apply T, X.
    + intros j sk w N. rewrite nth_error_map in N. destruct (nth_error body j) as [[k i]|] eqn:Nj; [|discriminate]. cbn [option_map] in N. injection N as -> _. eapply F, Nj.
  - apply Forall_map. eapply Forall_impl; [|exact Fo]. intros [k i] Oi. unfold push. cbn [fst snd] in *. destruct (is_wsitem i); [exact Oi|apply ok_trivia, Oi].
Qed.
Lemma push_bare ind es : Grammar.blanks ind -> Forall bare_entry es -> Forall bare_entry (map (push ind) es).
Proof.
  intros Bi F. apply Forall_map. eapply Forall_impl; [|exact F]. intros [k i] [(K & V & Lc)|[K P]]; cbn [fst snd] in *.
  - left. split; [exact K|]. destruct i as [s f|t| | | | | | ]; try destruct V; split; try exact I; exact Lc.
  - right. split; [exact K|]. destruct i; try destruct P; exact I.
Qed.
Lemma indent_blanks n t : Forall gap_c (tr_indent t) -> Forall gap_c (tr_indent (indent_trivia n t)) /\ (Grammar.blanks (tr_indent t) -> Grammar.blanks (tr_indent (indent_trivia n t))).
Proof.
  assert (R : Grammar.blanks (repeat chSP n)) by (induction n; constructor; auto; left; reflexivity).
  intros G. unfold indent_trivia. cbn [with_indent tr_indent]. split.
  - apply Forall_app. split; [destruct (startswith _ _); repeat constructor|]. eapply Forall_impl; [|exact R]. intros c H. right. exact H.
  - intros B. destruct (tr_indent t) as [|c r]; [exact R|]. inversion B as [|? ? Hc _]; subst. cbn [startswith]. destruct Hc as [->| ->]; exact R.
Qed.
Lemma indent_table n tops path pfx sk c m v : ok_cont c -> ntable tops path pfx sk (ITable c m) v -> ntable tops path pfx sk (item_indent n (ITable c m)) v.
Proof.
  intros O H. cbn [item_indent]. set (t := indent_trivia n (tm_trivia m)). set (ind := match first_spaces (tr_indent t) with Some s => s | None => [] end).
  assert (Bi : Grammar.blanks ind) by (subst ind; destruct (first_spaces (tr_indent t)) eqn:Fs; [eapply spaces_blanks, Fs|constructor]).
  destruct (open_table _ _ _ _ _ _ _ H) as (b1 & b2 & d & -> & [T1 T0 T3 T4 T5 T6 T7 T8]). change (map _ (c_body c)) with (map (push ind) (c_body c)).
  apply (close_table _ _ _ _ _ _ (map (push ind) b1) (map (push ind) b2)); [apply ok_parts, push_ok, O|]. split; try assumption.
  - destruct m as [tr ao su nm di]. cbn [set_tm_trivia tm_trivia] in *. destruct T4 as (G & R1 & R2). split; [apply (indent_blanks n tr G)|]. split; assumption.
  - intros Es. destruct m as [tr ao su nm di]. destruct (T6 Es) as (X1 & X2 & X3). split; [exact X1|]. split; [apply push_bare; assumption|]. intros E2. destruct (X3 E2) as (e & Ie & Ke). exists (push ind e). split; [rewrite <- map_app; apply in_map, Ie|exact Ke].
  - destruct c as [bd ? ? ? ?]. cbn [set_body c_body] in *. rewrite T7. apply map_app.
  - inversion T8 as [tps pth pf q1 q2 ps l H1 H2 Nd]; subst. constructor; [apply push_lines; assumption|apply push_tables; assumption|exact Nd].
Qed.
Lemma indent_done m tops path pfx c b1 b2 d k n : ok_cont c -> c_body c = b1 ++ b2 -> nbody tops path pfx b1 b2 d -> method_at c k ->
  exists c' b1' b2', apply_op m c (EIndent k n) = Ok c' /\ done (super_of m) tops path pfx b1 b2 d (EIndent k n) c' b1' b2' d.
Proof.
  intros O B H A. apply on_item_done; auto.
  - intros it P. exists (indent_trivia n). split; [destruct it; try destruct P; reflexivity|]. intros T. pose proof (tidy_head _ T) as (G & _). destruct T as (T1 & T2). split; [apply (indent_blanks n _ G), T1|exact T2].
  - intros it Ti. destruct it as [ | | | | | |tc tm|l a b t]; try discriminate Ti.
    + split; [reflexivity|]. split; [|intros sk v Oi; inversion Oi; subst; [apply indent_table; assumption|discriminate]]. intros Oi. inversion Oi; subst; [|discriminate]. cbn [item_indent]. constructor. apply (push_ok tc). assumption.
    + split; [reflexivity|]. split; [apply (ok_trivia _ (IAoT l a b t))|]. intros sk v _ Nt. cbn [item_indent set_trivia]. inversion Nt; subst. apply nt_aot; assumption.
  - apply ch_indent.
Qed.
