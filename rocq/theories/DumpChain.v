(** DumpChain: the nested super tables a long header stands for, and how several
    of them are put together again. *)
From Verif Require Import Base Source Utils Items Container Arrays Parser Api Lemmas Escape Strings StringRT StringApi Numbers Floats Dates Keys Reader Consist OMap ContOps Wf Mono ListSpec ArrayLemmas ItemInd PyVal PyItem ItemConv DumpText DumpCont DumpValue DumpHead.
From Coq Require Import ZifyBool ZifyNat ZifyN Permutation.
Open Scope nat_scope.

Definition chain_meta (m : tmeta) : Prop := tm_aot m = false /\ tm_super m = Some true /\ tr_indent (tm_trivia m) = [] /\ tm_name m <> None.
Inductive chain_of (leaf : item) : list str -> container -> Prop :=
  | co_last sk : k_dotted sk = false -> chain_of leaf [k_key sk] (singleton sk leaf)
  | co_more sk ks c m : chain_of leaf ks c -> chain_meta m -> k_dotted sk = false -> chain_of leaf (k_key sk :: ks) (singleton sk (ITable c m)).
Fixpoint wrap (ks : list str) (v : pyv) : pyv := match ks with [] => v | k :: ks' => PDict [(k, wrap ks' v)] end.
Lemma wrap_app a b v : wrap (a ++ b) v = wrap a (wrap b v).
Proof. induction a as [|k a IH]; [reflexivity|]. cbn [app wrap]. rewrite IH. reflexivity. Qed.
Lemma wrap_eq ks v v' : pyeq v v' -> pyeq (wrap ks v) (wrap ks v').
Proof.
  intros H. induction ks as [|k ks IH]; [exact H|]. cbn [wrap]. eapply pe_dict; [apply Permutation_refl|]. constructor; [split; [reflexivity|exact IH]|constructor].
Qed.
Lemma sunwrap_singleton sk it v : sunwrap it = Some v -> sunwrap_cont (singleton sk it) = Some [(k_key sk, v)].
Proof. intros H. rewrite sunwrap_cont_eq. cbn [singleton c_dict map]. unfold suval, get_item. cbn [c_map c_body singleton map_get]. rewrite str_eqb_refl. cbn [nth_error option_map snd]. rewrite H. reflexivity. Qed.
Lemma chain_unwrap leaf ks c v : chain_of leaf ks c -> sunwrap leaf = Some v -> forall m, sunwrap (ITable c m) = Some (wrap ks v).
Proof.
  intros H U. induction H as [sk D|sk ks c m H IH M D]; intros m'; rewrite sunwrap_table.
  - rewrite (sunwrap_singleton sk leaf v U). reflexivity.
  - rewrite (sunwrap_singleton sk _ _ (IH m)). reflexivity.
Qed.
Lemma nest_chain rest c m aot : rest <> [] -> Forall (fun p => k_dotted p = false) rest -> forall parent,
  exists nm, chain_of (leaf_item c m aot nm) (map k_key rest) (nest lf_trivia rest parent c m aot).
Proof.
  intros Ne F. induction F as [|sk rest D F IH]; [congruence|]. intros parent. destruct rest as [|s2 rest].
  - exists parent. cbn [map nest]. constructor. exact D.
  - destruct (IH ltac:(discriminate) (k_key sk)) as [nm H]. exists nm. cbn [map nest]. cbn [map] in H. constructor; [exact H| |exact D].
    repeat split. discriminate.
Qed.
Lemma chain_size leaf ks c : chain_of leaf ks c -> List.length ks <= csize c.
Proof. induction 1 as [sk D|sk ks c m H IH M D]; cbn [singleton csize fold_right List.length]; [destruct leaf; cbn [isize]; lia|]. cbn [isize]. lia. Qed.
Lemma name_same k it : (match it with ITable _ m => tm_name m <> None | IAoT _ n _ _ => n <> None | _ => True end) -> set_name k it = it.
Proof. destruct it as [ | | | | | |c m|l [n|] p t]; try reflexivity; cbn [set_name]; [|intros H; congruence]. destruct (tm_name m); [reflexivity|congruence]. Qed.
Lemma list_set_end {A} (l : list A) x y : list_set (List.length l) y (l ++ [x]) = l ++ [y].
Proof. induction l as [|z l IH]; [reflexivity|]. cbn [List.length list_set app]. rewrite IH. reflexivity. Qed.
Lemma nth_end {A} (l : list A) x : nth_error (l ++ [x]) (List.length l) = Some x.
Proof. rewrite nth_error_app2, Nat.sub_diag by lia. reflexivity. Qed.
(** A container whose last entry is a super table or an array of tables. *)
Lemma singleton_add sk it : singleton sk it = Cont [(Some sk, it)] [(k_key sk, One 0)] true (if is_table it then [k_key sk] else []) [k_key sk]. Proof. reflexivity. Qed.
Section Merge.
  Variables (l l' : list (container * tmeta)) (nm nm' : str) (t t' : trivia).
  Let leaf := IAoT l (Some nm) true t.
  Let leaf' := IAoT l' (Some nm') true t'.
  Let both := IAoT (fold_left (fun l x => aot_append l true t x) l' l) (Some nm) true t.
  (** Appending the table [ic] where the last entry [cc] has the same names. *)
  Definition merges (ks : list str) : Prop := forall cc ic, chain_of leaf ks cc -> chain_of leaf' ks ic -> forall cm, tr_indent (tm_trivia cm) = [] ->
    exists cc', chain_of both ks cc' /\ forall n, 3 * List.length ks + 2 <= n ->
      fold_res (fun acc (kv : option skey * item) => table_append n Own false (fst acc) (snd acc) (option_map KSingle (fst kv)) (snd kv)) (c_body ic) (cc, cm) = Ok (cc', cm).
  Lemma merge_super ks : merges ks -> forall body m tks d sk cc cm p ic im, chain_of leaf ks cc -> chain_of leaf' ks ic -> k_dotted sk = false -> k_dotted p = false -> k_key p = k_key sk ->
    tm_super cm = Some true -> tr_indent (tm_trivia cm) = [] -> tm_aot im = false -> tm_super im = Some true -> tm_name im <> None ->
    map_get (k_key sk) m = Some (One (List.length body)) -> last tks [] = k_key sk -> tks <> [] ->
    exists cc', chain_of both ks cc' /\ forall n val, 3 * List.length ks + 4 <= n ->
      append n Own false (Cont (body ++ [(Some sk, ITable cc cm)]) m true tks d) (Some (KSingle p)) (ITable ic im) val = Ok (Cont (body ++ [(Some sk, ITable cc' cm)]) m true tks d).
  Proof.
    intros M body m tks d sk cc cm p ic im H H' D D' Ek Sc Tc Ai Si Ni Mg La Ne. destruct (M cc ic H H' cm Tc) as (cc' & Hc & E). exists cc'. split; [exact Hc|].
    intros n val Hn. destruct n as [|n]; [lia|]. specialize (E n ltac:(lia)). cbn [append kstr]. rewrite name_same by exact Ni. rewrite pre_parsed by reflexivity.
    destruct n as [|n]; [lia|]. cbn [contains c_map]. rewrite Ek, Mg. cbn [rbind negb]. rewrite nth_end. cbn [is_table_or_aot is_table is_aot orb negb]. rewrite Ai. cbn [is_aot item_is_super].
    assert (X1 : table_is_super cc cm = true) by (unfold table_is_super; rewrite Sc; reflexivity). assert (X2 : table_is_super ic im = true) by (unfold table_is_super; rewrite Si; reflexivity).
    rewrite X1, X2, D, D'. cbn [orb]. destruct tks as [|a tks]; [congruence|]. rewrite La, str_eqb_refl. cbn [rbind negb andb is_own]. rewrite E. cbn [rbind fst snd]. rewrite list_set_end. reflexivity.
  Qed.
  Lemma merge_ok ks : merges ks.
  Proof.
    induction ks as [|k ks IH]; intros cc ic H H' cm Tc; [inversion H|]. inversion H as [sk D E1 E2|sk ks1 c m Hc Mc D E1 E2]; subst; inversion H' as [sk' D' E1' E2'|sk' ks1' c' m' Hc' Mc' D' E1' E2']; subst; try solve [inversion Hc]; try solve [inversion Hc'].
    - exists (singleton sk both). split; [rewrite E1'; constructor; exact D|]. intros n Hn. cbn [singleton c_body fold_res fst snd option_map]. destruct n as [|[|[|n]]]; cbn [List.length] in Hn; try lia.
      cbn [table_append append kstr]. unfold leaf, leaf', both. rewrite name_same by discriminate. rewrite pre_parsed by reflexivity. cbn [contains c_map singleton map_get]. rewrite E1', str_eqb_refl. cbn [rbind negb nth_error is_shared andb list_set option_map key_parts c_map map_get].
      rewrite E1', str_eqb_refl, Tc. reflexivity.
    - destruct Mc as (Ma & Ms & Mt & Mn), Mc' as (Ma' & Ms' & Mt' & Mn').
      destruct (merge_super ks IH [] [(k_key sk, One 0)] [k_key sk] [k_key sk] sk c m sk' c' m' Hc Hc' D D' E1' Ms Mt Ma' Ms' Mn') as (cc' & Hcc & E).
      { cbn [map_get]. rewrite str_eqb_refl. reflexivity. } { reflexivity. } { discriminate. }
      exists (singleton sk (ITable cc' m)). split; [rewrite E1'; constructor; [exact Hcc|repeat split; assumption|exact D]|]. intros n Hn. cbn [singleton c_body fold_res fst snd option_map]. destruct n as [|n]; [lia|]. cbn [List.length] in Hn.
      cbn [table_append]. cbn [app is_table] in E |- *. rewrite E by lia. cbn [rbind option_map key_parts c_map map_get]. rewrite E1', str_eqb_refl, Tc. reflexivity.
  Qed.
End Merge.
