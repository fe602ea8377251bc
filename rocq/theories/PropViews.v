(** Property C48: writing through a table that is defined in several places.
    [open_view d k] is [doc[k]] for such a table, [view_set] is [view[x] = val], [view_del] is [del view[x]] (Views.v);
    [view_set_doc] and [view_del_doc] are what they do to the document.
    [in_part d k i tc tm]: entry [i] of the document is a part of the table [k]: a table with the container [tc];
    [only_there d k i x]: no other part of [k] has the key [x]. *)
From Verif Require Import Base Utils Items Container Parser Api PyVal PyItem DumpText DumpValue Render ContOps ContText Denote Written MadeNeat PropContainers LookupSays Views ViewFacts.

(** C48, assignment: in a parsed document let the key of [sk] have a value, in one part of the table [k] only.  Then [view[x] = val], where
    [val] is a Python value that is no dict and no list of dicts, changes the text of that value into TOML for [val], and no other character.
    If the text has no "[[", it also brings the view up to date without an exception: the key has the new value in it, the others have what they had.
    Missing: keys that are tables, new keys, values that are dicts; see the refutations. *)
Theorem C48_assign_partial : forall s d k v i tc tm sk v0 val, parse s = Ok d -> open_view d k = Ok v -> in_part d k i tc tm -> In (Some sk, v0) (c_body tc) -> plain v0 ->
  only_there d k i (k_key sk) -> py_fine val -> tablish val = false ->
  exists d' a b w val', let t0 := item_trivia v0 in view_set_doc d v (k_key sk) val = Ok d'
    /\ cont_string d = a ++ (k_orig sk ++ k_sep sk) ++ item_string v0 ++ (tr_cws t0 ++ tr_comment t0 ++ tr_trail t0) ++ b
    /\ cont_string d' = a ++ (k_orig sk ++ k_sep sk) ++ w ++ (tr_cws t0 ++ tr_comment t0 ++ tr_trail t0) ++ b
    /\ denotes w val' /\ pyeq val val' /\ (no_aot_text s -> exists v' it, view_set d v (k_key sk) val = Ok (d', v') /\ view_has v' (k_key sk) = Ok true /\ view_get v' (k_key sk) = Some it /\ denotes (item_string it) val' /\
        forall y, y <> k_key sk -> view_get v' y = view_get v y).
Proof.
  intros s d k v i tc tm sk v0 val H O Pt I1 P0 U F T. destruct (made_item PkTable val F T) as (it & val' & E & P & Tr & D & Q & Fx). apply Snug.snug_text in D. destruct (made_item PkNone val F T) as (it' & val2 & E' & P' & _ & D' & Q' & Fx').
  destruct (assign_view s d k v i tc tm sk v0 val it it' H O Pt I1 P0 U P E (conj E' P')) as (d' & Es & Hi & Na).
  destruct (C19_replace_nested d d' (k_key sk) sk v0 it Hi) as (a & b & T1 & T2); [|rewrite Tr; reflexivity|rewrite Tr; reflexivity|].
  - destruct it as [| | | |g t ml| | |]; try exact I. exact (made_flat PkTable val _ _ _ E).
  - exists d', a, b, (item_string it), val'. cbv zeta in *. repeat (split; [assumption|]). intros N. destruct (Na N) as (v' & w & Ev & V1 & (V2 & V3) & V4). exists v', (copy_trivia it' w). repeat (split; [assumption|]). split; [|exact V4].
    rewrite (copy_string it' w P'); [|destruct it' as [| | | |g t ml| | |]; try exact I; exact (made_flat PkNone val _ _ _ E')]. rewrite (made_same val it it' F T E E'). exact D.
Qed.
Print Assumptions C48_assign_partial.

(** C48, deletion: with the same conditions.  If the part has a header of its own and has other keys, the line of the key goes. *)
Theorem C48_delete_partial : forall s d k v i tc tm sk v0 sk' v', parse s = Ok d -> open_view d k = Ok v -> in_part d k i tc tm -> In (Some sk, v0) (c_body tc) -> plain v0 ->
  only_there d k i (k_key sk) -> tm_super tm = Some false -> In (Some sk', v') (c_body tc) -> k_key sk' <> k_key sk ->
  exists d' tabs a pfx b, view_del_doc d v (k_key sk) = Ok (d', tabs) /\ cont_string d = a ++ line (prefixed pfx (k_orig sk)) sk v0 ++ b /\ cont_string d' = a ++ b
    /\ (no_aot_text s -> exists v', view_del d v (k_key sk) = Ok (d', v') /\ view_has v' (k_key sk) = Ok false /\ forall y, y <> k_key sk -> view_get v' y = view_get v y).
Proof.
  intros s d k v i tc tm sk v0 sk' v' H O Pt I1 P0 U Hs I2 K. destruct (delete_line s d k v i tc tm sk v0 sk' v' H O Pt I1 P0 U Hs I2 K) as (d' & tabs & E & Ne).
  destruct (C18_delete_nested d d' (k_key sk) sk v0 Ne) as (a & pfx & b & T1 & T2). exists d', tabs, a, pfx, b. split; [exact E|]. split; [exact T1|]. split; [exact T2|].
  intros Na. destruct (del_self s d k v i tc tm sk v0 tabs H Na O Pt I1 P0) as (v1 & Ev & V1 & V2). unfold view_del. rewrite E. cbn [rbind fst snd]. rewrite Ev. cbn [rbind]. eauto.
Qed.
Print Assumptions C48_delete_partial.
(** If it was the last key of its part, and there is another part, the text of the part goes: its header, if it has one, with the comments and blank lines below;
    for a part that is one dotted key, [a.x = 1], this is the line. *)
Theorem C48_delete_last_partial : forall s d k v i tc tm sk v0 j tcj tmj, parse s = Ok d -> open_view d k = Ok v -> in_part d k i tc tm -> In (Some sk, v0) (c_body tc) -> plain v0 ->
  only_there d k i (k_key sk) -> (forall y, defines (c_body tc) y -> y = k_key sk) -> in_part d k j tcj tmj -> j <> i ->
  exists d' tabs a bk b, view_del_doc d v (k_key sk) = Ok (d', tabs) /\ cont_string d = a ++ etext None false (Some bk, ITable tc tm) ++ b /\ cont_string d' = a ++ b
    /\ (k_dotted bk = true -> tm_super tm = Some true -> tm_disp tm = None -> tm_trivia tm = default_trivia -> c_body tc = [(Some sk, v0)] -> etext None false (Some bk, ITable tc tm) = line (k_orig bk ++ [46]%N ++ k_orig sk) sk v0)
    /\ (no_aot_text s -> exists v', view_del d v (k_key sk) = Ok (d', v') /\ view_has v' (k_key sk) = Ok false /\ forall y, y <> k_key sk -> view_get v' y = view_get v y).
Proof.
  intros s d k v i tc tm sk v0 j tcj tmj H O Pt I1 P0 U K Pj Ne. destruct (delete_part s d k v i tc tm sk v0 j tcj tmj H O Pt I1 P0 U K Pj Ne) as (d' & tabs & b1 & bk & b2 & E & Kb & B & B').
  exists d', tabs, (btext None false b1), bk, (btext None false b2). split; [exact E|]. rewrite !cont_string_eq, B, B', !btext_split, etext_null. split; [reflexivity|]. split; [reflexivity|]. split; [exact (dotted_line bk tc tm sk v0 P0)|].
  intros Na. destruct (del_self s d k v i tc tm sk v0 tabs H Na O Pt I1 P0) as (v1 & Ev & V1 & V2). unfold view_del. rewrite E. cbn [rbind fst snd]. rewrite Ev. cbn [rbind]. eauto.
Qed.
Print Assumptions C48_delete_last_partial.

(** What else may happen.  [after s k f]: the text of the document [s] after [f] was done with it and [doc[k]]. *)
Definition nl : str := [10]%N.
Definition after (s k : str) (f : container -> pview -> res (container * pview)) : res str :=
  let* d := parse s in let* v := open_view d k in let* r := f d v in Ok (cont_string (fst r)).
Definition then_set (x : str) (val : pyv) (r : res (container * pview)) : res (container * pview) := let* r := r in view_set (fst r) (snd r) x val.
Definition then_del (x : str) (r : res (container * pview)) : res (container * pview) := let* r := r in view_del (fst r) (snd r) x.
Definition two_keys : str := L "a.x = 1" ++ nl ++ L "a.y = 2 # c" ++ nl.
Definition three_keys : str := two_keys ++ L "a.z = 3" ++ nl.
(** After a deletion the same view does not find its parts any more (defect): a key that is there cannot be assigned or
    ends up in another part, so that it is defined twice; a key that was assigned cannot be deleted. *)
Theorem C48_stale_refuted :
  after two_keys (L "a") (fun d v => then_set (L "y") (PInt 3) (view_del d v (L "x"))) = Err IndexErrorE /\
  after three_keys (L "a") (fun d v => then_set (L "y") (PInt 5) (view_del d v (L "x"))) = Ok (L "a.y = 2 # c" ++ nl ++ L "a.z = 3" ++ nl ++ L "a.y = 5" ++ nl) /\
  after three_keys (L "a") (fun d v => then_del (L "n") (view_set d v (L "n") (PInt 5))) = Err (NonExistentKeyE (L "n")).
Proof. split; [vm_compute; reflexivity|split; [vm_compute; reflexivity|vm_compute; reflexivity]]. Qed.
Print Assumptions C48_stale_refuted.
(** A new key goes to the first part, also where this is only the super table of [a.b]: the header is written twice, which the parser refuses (defect). *)
Theorem C48_new_refuted : exists w, after (L "[a.b]" ++ nl ++ L "[c]" ++ nl ++ L "[a]" ++ nl ++ L "y = 1" ++ nl) (L "a") (fun d v => view_set d v (L "n") (PInt 5)) = Ok w /\ forall d, parse w <> Ok d.
Proof. eexists. split; [vm_compute; reflexivity|]. intros d. vm_compute. discriminate. Qed.
Print Assumptions C48_new_refuted.
(** A key whose table is in two parts is replaced or deleted in the last only (defect). *)
Theorem C48_part_refuted :
  after (L "[a.b.c]" ++ nl ++ L "[c]" ++ nl ++ L "[a.b.d]" ++ nl ++ L "y = 1" ++ nl) (L "a") (fun d v => view_set d v (L "b") (PInt 5)) = Ok (L "[a.b.c]" ++ nl ++ L "[c]" ++ nl ++ L "[a]" ++ nl ++ L "b = 5" ++ nl) /\
  after (L "[a.b.c]" ++ nl ++ L "[c]" ++ nl ++ L "[a.b.d]" ++ nl ++ L "y = 1" ++ nl) (L "a") (fun d v => view_del d v (L "b")) = Ok (L "[a.b.c]" ++ nl ++ L "[c]" ++ nl).
Proof. split; [vm_compute; reflexivity|vm_compute; reflexivity]. Qed.
Print Assumptions C48_part_refuted.

(** Cases that meet the conditions of the theorems. *)
Example C48_example :
  after two_keys (L "a") (fun d v => view_set d v (L "y") (PInt 5)) = Ok (L "a.x = 1" ++ nl ++ L "a.y = 5 # c" ++ nl) /\
  after two_keys (L "a") (fun d v => view_del d v (L "x")) = Ok (L "a.y = 2 # c" ++ nl) /\
  after (L "[a.b]" ++ nl ++ L "[c]" ++ nl ++ L "[a]" ++ nl ++ L "y = 1" ++ nl ++ L "z = 2" ++ nl) (L "a") (fun d v => view_del d v (L "y")) = Ok (L "[a.b]" ++ nl ++ L "[c]" ++ nl ++ L "[a]" ++ nl ++ L "z = 2" ++ nl).
Proof. split; [vm_compute; reflexivity|split; [vm_compute; reflexivity|vm_compute; reflexivity]]. Qed.
Example C48_meets : exists d v tc tm sk v0, parse two_keys = Ok d /\ open_view d (L "a") = Ok v /\ in_part d (L "a") 1 tc tm /\ In (Some sk, v0) (c_body tc) /\ k_key sk = L "y" /\ plain v0 /\ only_there d (L "a") 1 (L "y").
Proof.
  eexists _, _, _, _, _, _. split; [vm_compute; reflexivity|]. split; [vm_compute; reflexivity|]. split; [eexists; split; [vm_compute; reflexivity|reflexivity]|]. split; [left; reflexivity|]. split; [reflexivity|]. split; [exact I|].
  intros j tc tm (bk & N & _) (sk & it & I1 & K). destruct j as [|[|j]]; [|reflexivity|destruct j; discriminate N]. vm_compute in N. injection N as <- <- <-. destruct I1 as [I1|[]]. injection I1 as <- <-. discriminate K.
Qed.
