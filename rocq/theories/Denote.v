(** Denote: specification for C38, independent of the parser: the value texts of
    TOML 1.0 and the Python values they stand for. *)
From Verif Require Import Base Utils PyVal Numbers Dates Grammar Meaning.
Open Scope N_scope.

(** * Strings: as in Meaning.v, but every escape is a TOML escape *)
Definition scalar_value (v : N) : Prop := v <= 0xD7FF \/ 0xE000 <= v <= 0x10FFFF.
Inductive escape_means : str -> char -> Prop :=
  | xm_short c v : In (c, v) short_escapes -> escape_means [92; c] v
  | xm_u w : List.length w = 4%nat -> dig 16 w -> scalar_value (positional 16 w) -> escape_means (92 :: 117 :: w) (positional 16 w)
  | xm_U w : List.length w = 8%nat -> dig 16 w -> scalar_value (positional 16 w) -> escape_means (92 :: 85 :: w) (positional 16 w).
Section Strings.
  Context (basic ml : bool) (q : char).
  (** [pieces_mean k b m]: [k] quotes stand just before [b]; [b] stands for [m]. *)
  Inductive pieces_mean : nat -> str -> str -> Prop :=
    | sm_nil k : pieces_mean k [] []
    | sm_char k c w m : c <> q -> (basic = true -> c <> 92) -> (control_c c -> ml = true /\ newline_c c) -> pieces_mean 0 w m -> pieces_mean k (c :: w) (c :: m)
    | sm_escape k u v w m : basic = true -> escape_means u v -> pieces_mean 0 w m -> pieces_mean k (u ++ w) (v :: m)
    | sm_continued k u w m : basic = true -> ml = true -> Forall space_c u -> In 10 u -> no_head space_c w -> pieces_mean 0 w m -> pieces_mean k (92 :: u ++ w) m
    | sm_quote k w m : ml = true -> (k < 2)%nat -> pieces_mean (S k) w m -> pieces_mean k (q :: w) (q :: m).
End Strings.
Definition string_means (basic ml : bool) (w m : str) : Prop :=
  let q := quote_of basic in
  exists n b, pieces_mean basic ml q 0 b m /\ first_newline ml n (b ++ [q]) /\
    w = if ml then [q; q; q] ++ n ++ b ++ [q; q; q] else [q] ++ b ++ [q].

(** * Keys *)
Inductive name_means : str -> str -> Prop :=
  | nn_bare a w z : blanks a -> w <> [] -> Forall bare_c w -> blanks z -> name_means (a ++ w ++ z) w
  | nn_quoted a basic w z m : blanks a -> string_means basic false w m -> blanks z -> name_means (a ++ w ++ z) m.
Inductive key_means : str -> list str -> Prop :=
  | km_one w m : name_means w m -> key_means w [m]
  | km_dot w m r l : name_means w m -> key_means r l -> key_means (w ++ [46] ++ r) (m :: l).

(** * Numbers.  Digits may be grouped by single underscores. *)
Definition run (base : N) (ds w : str) : Prop := exists gs, groups_ok base gs /\ ds = List.concat gs /\ w = join [95] gs.
Definition no_leading_zero (ds : str) : Prop := hd 0 ds <> 48 \/ List.length ds = 1%nat.
Inductive sign_says : str -> bool -> Prop := sgn_none : sign_says [] false | sgn_plus : sign_says [43] false | sgn_minus : sign_says [45] true.
Inductive int_means : str -> Z -> Prop :=
  | im_dec s neg ds w : sign_says s neg -> run 10 ds w -> no_leading_zero ds -> int_means (s ++ w) ((if neg then -1 else 1) * Z.of_N (positional 10 ds))
  | im_hex ds w : run 16 ds w -> int_means ([48; 120] ++ w) (Z.of_N (positional 16 ds))
  | im_oct ds w : run 8 ds w -> int_means ([48; 111] ++ w) (Z.of_N (positional 8 ds))
  | im_bin ds w : run 2 ds w -> int_means ([48; 98] ++ w) (Z.of_N (positional 2 ds)).
Inductive fraction : str -> str -> Prop :=
  | fc_none : fraction [] []
  | fc_some ds w : run 10 ds w -> fraction ([46] ++ w) ds.
(** Simplification: a capital [E]; tomlkit refuses it after a lone zero (C36). *)
Inductive exponent : str -> Z -> Prop :=
  | xp_none : exponent [] 0
  | xp_some e s neg ds w : e = 101 \/ e = 69 -> sign_says s neg -> run 10 ds w -> exponent ([e] ++ s ++ w) ((if neg then -1 else 1) * Z.of_N (positional 10 ds)).
Inductive float_means : str -> fval -> Prop :=
  | fm_dec s neg ip w fp ft e et : sign_says s neg -> run 10 ip w -> no_leading_zero ip -> fraction ft fp -> exponent et e -> ft ++ et <> [] ->
      ~ (ip = [48] /\ ft = [] /\ hd 0 et = 69) ->
      float_means (s ++ w ++ ft ++ et) (FDec neg (positional 10 (ip ++ fp)) (e - Z.of_nat (List.length fp)))
  | fm_inf s neg : sign_says s neg -> float_means (s ++ L "inf") (FInf neg)
  | fm_nan s neg : sign_says s neg -> float_means (s ++ L "nan") (FNan neg).

(** * Dates and times.  Fractions of a second are truncated to microseconds. *)
Definition field (k : nat) (w : str) (n : N) : Prop := List.length w = k /\ dig 10 w /\ n = positional 10 w.
Inductive date_means : str -> date -> Prop :=
  | dm y m d y' m' d' : field 4 y y' -> field 2 m m' -> field 2 d d' -> real_day y' m' d' -> date_means (y ++ [45] ++ m ++ [45] ++ d) (mkDate y' m' d').
Inductive second_fraction : str -> N -> Prop :=
  | sf_none : second_fraction [] 0
  | sf_some ds : ds <> [] -> dig 10 ds -> second_fraction ([46] ++ ds) (positional 10 (firstn 6 (ds ++ L "000000"))).
Inductive time_means : str -> time -> Prop :=
  | tm h m s f h' m' s' f' : field 2 h h' -> field 2 m m' -> field 2 s s' -> h' <= 23 -> m' <= 59 -> s' <= 59 -> second_fraction f f' ->
      time_means (h ++ [58] ++ m ++ [58] ++ s ++ f) (mkTime h' m' s' f').
Inductive offset_means : str -> option Z -> Prop :=
  | om_none : offset_means [] None
  | om_zulu z : z = 90 \/ z = 122 -> offset_means [z] (Some 0%Z)
  | om_some s neg h m h' m' : sign_says s neg -> s <> [] -> field 2 h h' -> field 2 m m' -> h' <= 23 -> m' <= 59 ->
      offset_means (s ++ h ++ [58] ++ m) (Some ((if neg then -1 else 1) * Z.of_N (h' * 60 + m'))%Z).
Inductive datetime_means : str -> datetime -> Prop :=
  | dtm d t o d' t' o' x : date_means d d' -> x = 84 \/ x = 116 \/ x = 32 -> time_means t t' -> offset_means o o' ->
      datetime_means (d ++ [x] ++ t ++ o) (mkDT d' t' o').

(** * Values *)
(** The tables that dotted keys describe: a name stands for a value, or for a table
    of names. *)
Inductive node : Type := Value (v : pyv) | Names (l : list (str * node)).
Fixpoint node_value (n : node) : pyv :=
  match n with
  | Value v => v
  | Names l => PDict (map (fun kn => match kn with (k, m) => (k, node_value m) end) l)
  end.
Definition dict_of (l : list (str * node)) : list (str * pyv) := map (fun kn => (fst kn, node_value (snd kn))) l.
(** [put names v l l']: "names = v" turns [l] into [l'].  A name is given one value
    only; a table may be given more names as long as it came from dotted keys. *)
Inductive put : list str -> pyv -> list (str * node) -> list (str * node) -> Prop :=
  | put_value k v l : ~ In k (map fst l) -> put [k] v l (l ++ [(k, Value v)])
  | put_table k r v l m : ~ In k (map fst l) -> put r v [] m -> put (k :: r) v l (l ++ [(k, Names m)])
  | put_below k r v a m m' b : put r v m m' -> put (k :: r) v (a ++ (k, Names m) :: b) (a ++ (k, Names m') :: b).
Inductive denotes : str -> pyv -> Prop :=
  | dn_string basic ml w m : string_means basic ml w m -> denotes w (PStr m)
  | dn_true : denotes (L "true") (PBool true)
  | dn_false : denotes (L "false") (PBool false)
  | dn_int w z : int_means w z -> denotes w (PInt z)
  | dn_float w f : float_means w f -> denotes w (PFloat f)
  | dn_date w d : date_means w d -> denotes w (PDate d)
  | dn_time w t : time_means w t -> denotes w (PTime t)
  | dn_datetime w d : datetime_means w d -> denotes w (PDateTime d)
  | dn_array w l : elements false w l -> denotes ([91] ++ w ++ [93]) (PList l)
  | dn_empty b : blanks b -> denotes ([123] ++ b ++ [125]) (PDict [])
  | dn_inline w l : fields [] w l -> denotes ([123] ++ w ++ [125]) (PDict (dict_of l))
(** Inside an array: white space and comments between the parts; a comma may follow
    the last value.  [true]: just after a value. *)
with elements : bool -> str -> list pyv -> Prop :=
  | em_end after g : gap g -> elements after g []
  | em_value g w v r l : gap g -> denotes w v -> elements true r l -> elements false (g ++ w ++ r) (v :: l)
  | em_comma g r l : gap g -> elements false r l -> elements true (g ++ [44] ++ r) l
(** Inside an inline table: [fields l w l'], the pairs of [w] turn [l] into [l']. *)
with fields : list (str * node) -> str -> list (str * node) -> Prop :=
  | fd_last b k names s w v z l l' : blanks b -> key_means k names -> sep_text s -> denotes w v -> blanks z -> put names v l l' -> fields l (b ++ k ++ s ++ w ++ z) l'
  | fd_more b k names s w v z r l l1 l2 : blanks b -> key_means k names -> sep_text s -> denotes w v -> blanks z -> put names v l l1 -> fields l1 r l2 ->
      fields l ((b ++ k ++ s ++ w ++ z) ++ [44] ++ r) l2.
Scheme denotes_mut := Induction for denotes Sort Prop
  with elements_mut := Induction for elements Sort Prop
  with fields_mut := Induction for fields Sort Prop.
Combined Scheme denote_mut from denotes_mut, elements_mut, fields_mut.
