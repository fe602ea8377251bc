(** Keying: keys as objects: made, compared, hashed, joined (model, C54). *)
From Verif Require Import Base Utils Items Container Api.
Open Scope nat_scope.

(** api.py:230-246 [tomlkit.key(k)]: a string gives a single key, a list of strings a dotted key (of one name, if the list has one). *)
Definition made_key (k : str + list str) : key := match k with inl k => api_key k | inr ks => api_dotted_key ks end.
(** items.py:430-431, 456-457 [__hash__]: [h] is [hash] of a string, [ht] of a tuple, from the hashes of what is in it. *)
Definition key_hash (h : str -> Z) (ht : list Z -> Z) (k : key) : Z :=
  match k with KSingle s => h (k_key s) | KDotted ks _ _ => ht (map (fun s => h (k_key s)) ks) end.
(** items.py:433-437, 459-460 [key == s] for a string [s] *)
Definition key_is_str (k : key) (s : str) : bool := match k with KSingle x => str_eqb (k_key x) s | KDotted _ _ _ => false end.
(** items.py:374-376 [is_multi]; 445 [key.key] of a dotted key *)
Definition key_key (k : key) : str := match k with KSingle s => k_key s | KDotted ks _ _ => join [chDOT] (map k_key ks) end.
(** items.py:1703-1724 [InlineTable.append] with a key made or read. *)
Definition inline_append (c : container) (new : bool) (k : key) (v : item) : res container :=
  let t := item_trivia v in
  let ind := if match tr_indent t with [] => true | _ => false end && Nat.ltb 0 (List.length (c_dict c)) && negb new then [chSP] else tr_indent t in
  let v := set_trivia (mkTrivia ind (tr_cws t) [] (tr_trail t)) v in
  append (app_fuel c (Some k) v) Own false c (Some k) v true.
