(** Property theorems: unicode escapes (C26).

    Vocabulary: [uni_tok a long hs b] is the source text of a basic string that
    consists of the text [a], the escape [\u] (or [\U] when [long]) followed by the
    characters [hs], and the text [b] ([a] and [b] written with [escape_string]);
    [dig 16 hs]: all of [hs] are hexadecimal digits; [positional 16 hs]: their value. *)
From Verif Require Import Base Source Utils Items Container Arrays Parser Api Lemmas Escape StringRT StringApi Numbers Unicode.
Open Scope nat_scope.

(** Four hexadecimal digits: accepted exactly when they name a scalar value. *)
Theorem C26_short_escape : forall a hs b, dig 16 hs -> List.length hs = 4 ->
  (~ surrogate (positional 16 hs) ->
     exists it, value_of (uni_tok a false hs b) = Ok it /\ str_value it = Some (a ++ [positional 16 hs] ++ b)
                /\ item_string it = uni_tok a false hs b)
  /\ (surrogate (positional 16 hs) ->
     exists l c, value_of (uni_tok a false hs b) = Err (ParseErr KInvalidUnicode l c)).
Proof.
  intros a hs b Hd Hl. destruct (uni_val_short hs Hd Hl) as [[Hs Hv]|[Hs Hv]]; split; intros H; try contradiction.
  - apply uni_token_bad; auto.
  - pose proof (uni_token_ok a false hs b _ Hl Hv) as R. eexists. split; [exact (reads_value_of _ _ (no_quote chDQ) I R)|].
    split; [reflexivity|]. unfold uni_tok. cbn [item_string str_item scalar_item scalar_string st_value].
    generalize (esc_ref (escaped_sequences SLB) a 0) (esc_ref (escaped_sequences SLB) b 0). intros x y.
    repeat (rewrite <- app_assoc; cbn [app]). reflexivity.
Qed.
Print Assumptions C26_short_escape.
(** Eight hexadecimal digits: the code points up to 0x10FFFF are accepted and decoded,
    the others refused.  (Surrogates are accepted: see [C26_surrogate_refuted].) *)
Theorem C26_long_escape_partial : forall a hs b, dig 16 hs -> List.length hs = 8 ->
  ((positional 16 hs <= 1114111)%N ->
     exists it, value_of (uni_tok a true hs b) = Ok it /\ str_value it = Some (a ++ [positional 16 hs] ++ b)
                /\ item_string it = uni_tok a true hs b)
  /\ ((1114111 < positional 16 hs)%N ->
     exists l c, value_of (uni_tok a true hs b) = Err (ParseErr KInvalidUnicode l c)).
Proof.
  intros a hs b Hd Hl. destruct (uni_val_long hs Hd Hl) as [[Hs Hv]|[Hs Hv]]; split; intros H; try lia.
  - apply uni_token_bad; auto.
  - pose proof (uni_token_ok a true hs b _ Hl Hv) as R. eexists. split; [exact (reads_value_of _ _ (no_quote chDQ) I R)|].
    split; [reflexivity|]. unfold uni_tok. cbn [item_string str_item scalar_item scalar_string st_value].
    generalize (esc_ref (escaped_sequences SLB) a 0) (esc_ref (escaped_sequences SLB) b 0). intros x y.
    repeat (rewrite <- app_assoc; cbn [app]). reflexivity.
Qed.
Print Assumptions C26_long_escape_partial.
(** A sequence with any ASCII character that is neither a hexadecimal digit nor one
    of blank, underscore, plus, minus, x, X is refused ([never_hex]). *)
Theorem C26_non_hex_refused_partial : forall a (long : bool) hs b c,
  List.length hs = (if long then 8 else 4) -> In c hs -> never_hex c ->
  exists l k, value_of (uni_tok a long hs b) = Err (ParseErr KInvalidUnicode l k).
Proof. intros a long hs b c Hl Hin Hc. apply uni_token_bad; [exact Hl|]. eapply uni_val_never; eauto. Qed.
Print Assumptions C26_non_hex_refused_partial.
(** The full claim fails: surrogates after \U, and a few non-hexadecimal sequences that
    Python's [int(_, 16)] accepts, are accepted. *)
Theorem C26_surrogate_refuted :
  exists it, value_of (uni_tok [] true (L "0000D800") []) = Ok it /\ str_value it = Some [55296%N] /\ surrogate 55296.
Proof. eexists. split; [vm_compute; reflexivity|]. split; [reflexivity|unfold surrogate; lia]. Qed.
Print Assumptions C26_surrogate_refuted.
Theorem C26_non_hex_accepted_refuted : forall hs, In hs [L "0x41"; L " 041"; L "+041"; L "1_23"; L "041 "; L "-000"] ->
  ~ dig 16 hs /\ exists it, value_of (uni_tok [] false hs []) = Ok it.
Proof.
  intros hs H. cbn [In] in H. repeat destruct H as [<-|H]; try contradiction;
    (split; [unfold dig; rewrite Forall_forall; intros F|eexists; vm_compute; reflexivity]).
  - specialize (F 120%N ltac:(simpl; auto)). discriminate.
  - specialize (F 32%N ltac:(simpl; auto)). discriminate.
  - specialize (F 43%N ltac:(simpl; auto)). discriminate.
  - specialize (F 95%N ltac:(simpl; auto)). discriminate.
  - specialize (F 32%N ltac:(simpl; auto)). discriminate.
  - specialize (F 45%N ltac:(simpl; auto)). discriminate.
Qed.
Print Assumptions C26_non_hex_accepted_refuted.
Example C26_example :
  uni_tok (L "a") false (L "00e9") (L "b") = [chDQ] ++ L "a\u00e9b" ++ [chDQ]
  /\ positional 16 (L "00e9") = 233%N /\ positional 16 (L "DfFf") = 57343%N
  /\ never_hex 103%N /\ never_hex chDQ.
Proof.
  split; [vm_compute; reflexivity|]. split; [reflexivity|]. split; [reflexivity|].
  split; (split; [reflexivity|split; [reflexivity|split; [reflexivity|]]]; cbn; intuition discriminate).
Qed.
