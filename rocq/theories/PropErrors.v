(** Property theorems: errors raised by [parse] (C03, C04).

    Vocabulary: [position is_lf p] is the pair (1 + number of LF in [p], number of
    characters of [p] after its last LF); [only_lf s]: LF is the only line break of [s];
    [inside i s]: offset [i] is at a character of [s], or at its end when [s] does not
    end with a line break. *)
From Verif Require Import Base Source Utils Items Container Arrays Parser Lemmas Reader Linecol Wf Errors.
From Coq Require Import ZifyBool ZifyNat ZifyN.
Open Scope nat_scope.

(** An error raised with the reader at offset [i] of a text reports the position of [i]. *)
Theorem C04_reader_position_partial : forall s i st k,
  src st = s -> idx st = i -> only_lf s -> inside i s ->
  exists l c, fst (raise (A := unit) k st) = Err (ParseErr k l c) /\ (l, c) = position is_lf (firstn i s).
Proof.
  intros s i st k Hs Hi Ho Hin. unfold raise, parse_error. rewrite Hs, Hi, (linecol_lf s i Ho Hin).
  cbn. eauto.
Qed.
Print Assumptions C04_reader_position_partial.

(** The same for any text without CRLF, line breaks being those of Python's [str.splitlines]. *)
Theorem C04_reader_position_splitlines_partial : forall s i st k,
  src st = s -> idx st = i -> no_crlf s -> inside i s ->
  exists l c, fst (raise (A := unit) k st) = Err (ParseErr k l c) /\ (l, c) = position is_linebreak (firstn i s).
Proof.
  intros s i st k Hs Hi Ho Hin. unfold raise, parse_error. rewrite Hs, Hi, (linecol_ok s i Ho Hin).
  cbn. eauto.
Qed.
Print Assumptions C04_reader_position_splitlines_partial.

(** Every parse error of [parse] reports the position of some offset of the text. *)
Theorem C04_parse_position_partial : forall s k l c, only_lf s -> parse s = Err (ParseErr k l c) ->
  exists i, i <= List.length s /\ (inside i s -> (l, c) = position is_lf (firstn i s)).
Proof.
  intros s k l c Ho H. unfold parse in H. apply (parse_err_ok s false false false false false) in H; try discriminate.
  cbn in H. destruct H as (i & Hi & E). exists i. split; [exact Hi|]. intros Hin. rewrite E. apply linecol_lf; assumption.
Qed.
Print Assumptions C04_parse_position_partial.
Example C04_parse_position_ex :
  only_lf (L "a = 1" ++ [chLF] ++ L "b = ?") /\ parse (L "a = 1" ++ [chLF] ++ L "b = ?") = Err (ParseErr (KUnexpectedChar 63%N) 2 4)
  /\ inside 10 (L "a = 1" ++ [chLF] ++ L "b = ?").
Proof.
  split; [|split; [vm_compute; reflexivity|left; cbn; lia]]. unfold only_lf. repeat constructor; intros H; try reflexivity; discriminate.
Qed.

(** What is missing.  At the end of a text that ends with LF, the line reported is one
    too small, for every such text. *)
Theorem C04_end_refuted : forall t st k, only_lf t -> src st = t ++ [chLF] -> idx st = List.length t + 1 ->
  fst (raise (A := unit) k st) = Err (ParseErr k (breaks is_lf (src st)) 0)
  /\ position is_lf (src st) = (1 + breaks is_lf (src st), 0).
Proof. intros t st k Ho Hs Hi. exact (linecol_end t st k Ho Hs Hi). Qed.
Print Assumptions C04_end_refuted.
(** With CRLF line ends the reported position is not the right one either. *)
Theorem C04_crlf_refuted : exists s i,
  s = L "a = 1" ++ [chCR; chLF] ++ L "b = 2" ++ [chCR; chLF] ++ L "c = ?" /\ nth_error s i = Some 63%N /\ position is_lf (firstn i s) = (3, 4)
  /\ parse s = Err (ParseErr (KUnexpectedChar 63%N) 3 0).
Proof. eexists. exists 18. split; [reflexivity|]. split; [reflexivity|]. split; vm_compute; reflexivity. Qed.
Print Assumptions C04_crlf_refuted.
(** Characters that Python's [splitlines] treats as line breaks (here U+2028, in a comment) are counted as well. *)
Theorem C04_separator_refuted : exists s i,
  s = L "a = 1 #" ++ [8232%N; chLF] ++ L "c = ?" /\ nth_error s i = Some 63%N /\ position is_lf (firstn i s) = (2, 4)
  /\ parse s = Err (ParseErr (KUnexpectedChar 63%N) 3 4).
Proof. eexists. exists 13. split; [reflexivity|]. split; [reflexivity|]. split; vm_compute; reflexivity. Qed.
Print Assumptions C04_separator_refuted.
