(** Property theorems: keys (C16), files (C25), reader (C30, C31), booleans (C34). *)
From Verif Require Import Base Source Utils Items Container Arrays Parser Api Lemmas StringApi Keys Reader Files.
Open Scope nat_scope.

(** * C16.  [api_key k] is [tomlkit.key(k)] for a string, [api_dotted_key ks] for a
    list of strings; [key_string] is [as_string()]; [parse_key n] is the parser's
    key reader ([n] bounds its recursion: anything above the length of the text
    will do).  [spaces sp]: blanks; [key_stop rest]: [rest] does not start with a
    character that would continue the key. *)
Theorem C16_any_string_is_a_key : forall (k : str) n pre sp rest mk,
  spaces sp -> key_stop rest -> List.length (key_string (api_key k)) < n ->
  exists sk mk',
    parse_key n (mkSt pre (key_string (api_key k) ++ sp ++ rest) mk)
    = (Ok (KSingle sk), mkSt (pre ++ key_string (api_key k) ++ sp) rest mk')
    /\ k_key sk = k /\ k_orig sk = key_string (api_key k) ++ sp.
Proof.
  intros k n pre sp rest mk H1 H2 H3.
  destruct (parse_key_list [k] n pre sp rest mk) as (K & mk' & E & A & B & C & D & F); [discriminate|exact H1|exact H2|exact H3|].
  destruct (F k eq_refl) as [sk ->]. exists sk, mk'. split; [exact E|]. cbn [key_parts map] in A. injection A as A.
  split; [exact A|exact C].
Qed.
Print Assumptions C16_any_string_is_a_key.
Theorem C16_dotted_keys : forall (ks : list str) n pre sp rest mk,
  ks <> [] -> spaces sp -> key_stop rest -> List.length (key_string (api_dotted_key ks)) < n ->
  exists K mk',
    parse_key n (mkSt pre (key_string (api_dotted_key ks) ++ sp ++ rest) mk)
    = (Ok K, mkSt (pre ++ key_string (api_dotted_key ks) ++ sp) rest mk')
    /\ map k_key (key_parts K) = ks /\ key_string K = key_string (api_dotted_key ks) ++ sp.
Proof.
  intros ks n pre sp rest mk H0 H1 H2 H3.
  assert (Ek : key_string (api_dotted_key ks) = key_text ks)
    by (unfold api_dotted_key, dotted_of, key_text; cbn [key_string]; rewrite map_map; reflexivity).
  rewrite Ek in *. destruct (parse_key_list ks n pre sp rest mk H0 H1 H2 H3) as (K & mk' & E & A & B & C & D & F).
  exists K, mk'. auto.
Qed.
Print Assumptions C16_dotted_keys.
Example C16_example :
  key_string (api_key (L "a.b c")) = [chDQ] ++ L "a.b c" ++ [chDQ]
  /\ key_string (api_key []) = [chDQ; chDQ]
  /\ key_string (api_key (L "a-b_1")) = L "a-b_1"
  /\ key_string (api_dotted_key [L "a"; []; L "b.c"]) = L "a." ++ [chDQ; chDQ] ++ L "." ++ [chDQ] ++ L "b.c" ++ [chDQ]
  /\ spaces (L "  ") /\ key_stop (L "= 1").
Proof. repeat split; try reflexivity; try discriminate. repeat constructor. Qed.

(** * C25.  [file_linesep old content] is the line-ending convention a [TOMLFile]
    remembers after reading [content]; [file_write ls text] the text it writes.
    [all_lf s]: no CRLF in [s]; [all_crlf s]: every LF in [s] is preceded by CR. *)
Theorem C25_line_endings_partial : forall (old : linesep) (content text : str),
  (has_lf content -> all_crlf content ->
     all_crlf (file_write (file_linesep old content) text)
     /\ file_write (file_linesep old content) content = content)
  /\ (has_lf content -> all_lf content ->
     ((~ exists a b, text = a ++ [chCR; chCR; chLF] ++ b) ->
        all_lf (file_write (file_linesep old content) text))
     /\ file_write (file_linesep old content) content = content)
  /\ (~ all_crlf content -> ~ all_lf content -> file_write (file_linesep old content) text = text).
Proof.
  intros old content text. split; [|split].
  - intros H1 H2. rewrite (ls_crlf old _ H1 H2). destruct (write_crlf text) as [A _]. destruct (write_crlf content) as [_ B]. auto.
  - intros H1 H2. rewrite (ls_lf old _ H1 H2). destruct (write_lf text) as [A _]. destruct (write_lf content) as [_ B].
    split; [apply A|apply B; exact H2].
  - intros H1 H2. rewrite (ls_mixed old _ H1 H2). reflexivity.
Qed.
Print Assumptions C25_line_endings_partial.
(** The full claim fails for a document whose text contains CR CR LF: a file read
    with LF line endings is then written with a CRLF. *)
Theorem C25_crcrlf_refuted : exists content text,
  has_lf content /\ all_lf content /\ ~ all_lf (file_write (file_linesep LsOther content) text).
Proof.
  exists (L "a = 1" ++ [chLF]), (L "x = 1" ++ [chCR; chCR; chLF]). split; [cbn; tauto|].
  split; [apply all_lf_iff; reflexivity|]. rewrite all_lf_iff. vm_compute. discriminate.
Qed.
Print Assumptions C25_crcrlf_refuted.
Example C25_example :
  file_linesep LsOther (L "a = 1" ++ [chCR; chLF] ++ L "b = 2" ++ [chCR; chLF]) = LsCRLF
  /\ file_write LsCRLF (L "a" ++ [chLF] ++ L "b" ++ [chCR; chLF]) = L "a" ++ [chCR; chLF] ++ L "b" ++ [chCR; chLF]
  /\ file_write LsLF (L "a" ++ [chLF] ++ L "b" ++ [chCR; chLF]) = L "a" ++ [chLF] ++ L "b" ++ [chLF].
Proof. repeat split. Qed.

(** * C30.  The reader state [st] (text before and after the position, marker) is
    the same after any look-ahead, whether it succeeds or fails; a failed boolean
    or string read restores the position. *)
Theorem C30_peeking_does_not_move : forall st : pst,
  (forall n, snd (peek n st) = st) /\ (forall n, snd (peek_table n st) = st) /\ (forall b, snd (peek_unicode b st) = st)
  /\ (forall b e st', parse_bool b st = (Err e, st') -> p_pre st' = p_pre st /\ p_rest st' = p_rest st)
  /\ (forall n d e st', restore_on_err (parse_string n d) st = (Err e, st') -> p_pre st' = p_pre st /\ p_rest st' = p_rest st).
Proof. exact peeks_still. Qed.
Print Assumptions C30_peeking_does_not_move.
Example C30_example :
  let st := mkSt (L "x") (L "[[ a.b ]]") 1 in
  snd (peek_table 20 st) = st /\
  match fst (peek_table 20 st) with Ok (b, k) => b = true /\ map k_key (key_parts k) = [L "a"; L "b"] | _ => False end.
Proof. repeat split; reflexivity. Qed.

(** * C31.  [rrun ops s]: the reader on text [s] after any sequence of its
    operations (advance by one, by [n], over a character class, set the marker). *)
Theorem C31_reader_slices : forall (s : str) (ops1 ops2 : list rop),
  let st := rrun ops1 s in
  let st' := rrun (ops1 ++ ops2) s in
  src st' = s
  /\ idx st <= idx st' <= List.length s
  /\ p_mark st' <= idx st' /\ extract st' = firstn (idx st' - p_mark st') (skipn (p_mark st') s)
  /\ p_rest st' = skipn (idx st') s.
Proof. intros s ops1 ops2 st st'. destruct (reader_tiles s ops1 ops2) as (A & B & C & D & E & F). auto 10. Qed.
Print Assumptions C31_reader_slices.
(** The whole parser only ever moves such a reader forward over the same text, and
    an accepted document has been read to its end. *)
Theorem C31_parser_reads_to_the_end : forall strict n s r st,
  parse_doc strict n (start s) = (r, st) ->
  src st = s /\ idx st <= List.length s /\ ((exists d, r = Ok d) -> idx st = List.length s).
Proof. exact parse_tiles. Qed.
Print Assumptions C31_parser_reads_to_the_end.
Example C31_example :
  extract (rrun [RIncN 2; RMark; RConsume is_bare_key_char; RInc] (L "  abc = 1")) = L "abc ".
Proof. reflexivity. Qed.

(** * C34.  Wherever the value reader yields a boolean [b], it has read exactly the
    text of [b] ([moved w st st']: it went from [st] over [w] to [st']), and the item
    renders as that text; conversely both texts are read as booleans anywhere. *)
Theorem C34_boolean_texts : forall strict n st it st' b,
  parse_value strict n st = (Ok it, st') -> bool_value it = Some b ->
  moved (bool_text b) st st' /\ item_string it = bool_text b.
Proof. exact bool_exact. Qed.
Print Assumptions C34_boolean_texts.
Theorem C34_both_booleans_read : forall b, reads_as (bool_text b) (api_bool b) (fun _ => True)
  /\ value_of (bool_text b) = Ok (api_bool b).
Proof. intros b. split; [apply reads_bool|]. exact (reads_value_of _ _ _ I (reads_bool b)). Qed.
Print Assumptions C34_both_booleans_read.
Example C34_example : bool_text true = L "true" /\ bool_text false = L "false"
  /\ (forall d, parse (L "x = TRUE") <> Ok d) /\ (forall d, parse (L "x = truE") <> Ok d).
Proof. repeat split; intros d; vm_compute; discriminate. Qed.
