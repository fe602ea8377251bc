(** Property C47: items computed from items are written as TOML for the result. *)
From Verif Require Import Base Utils Items Api Parser PyVal Numbers Floats Dates Grammar Meaning Denote CompValue Written Derived DerivedFacts.

(** C47, strings: let [i] and [j] be one-line string items of the same kind (basic or literal), each written as a TOML
    string for its value ([string_means], Denote.v: so are those that were parsed, and those made by the API).  Then [i + j] is a string
    item of that kind whose value is the concatenation and whose text is a TOML string for it.  So it goes on.
    Missing: multi-line strings, and operands of different kinds; see the refutation. *)
Theorem C47_string_partial : forall basic i j m n,
  string_means basic false (item_string i) m -> string_means basic false (item_string j) n -> str_value i = Some m -> str_value j = Some n ->
  exists k, str_add i j = Some k /\ str_value k = Some (m ++ n) /\ string_means basic false (item_string k) (m ++ n).
Proof. exact str_add_ok. Qed.
Print Assumptions C47_string_partial.

(** With a plain Python string: if it has no quote of the kind of [i], no control character other than tab, and
    no backslash where [i] is basic. *)
Theorem C47_plain_partial : forall basic i m s,
  string_means basic false (item_string i) m -> str_value i = Some m ->
  Forall (fun c => c <> quote_of basic /\ (basic = true -> c <> 92%N) /\ ~ control_c c) s ->
  exists k, str_add_plain i s = Some k /\ str_value k = Some (m ++ s) /\ string_means basic false (item_string k) (m ++ s).
Proof. exact str_add_plain_ok. Qed.
Print Assumptions C47_plain_partial.

(** Otherwise the text may be no TOML, or stand for another string (defect).  The left operand is the basic string a in the
    first three cases: adding a quote gives no TOML; adding the two characters backslash, n gives a line break; adding the
    literal string of these two, likewise.  Last, two multi-line strings, the second written with a first line
    break, which TOML ignores at the beginning only. *)
Theorem C47_string_refuted :
  (exists i k, value_of (L """a""") = Ok i /\ str_add_plain i (L """") = Some k /\ str_value k = Some (L "a""") /\ forall j, value_of (item_string k) <> Ok j) /\
  (exists i k j, value_of (L """a""") = Ok i /\ str_add_plain i (L "\n") = Some k /\ str_value k = Some (L "a\n") /\ value_of (item_string k) = Ok j /\ str_value j = Some (L "a" ++ [10]%N)) /\
  (exists i i' k j, value_of (L """a""") = Ok i /\ value_of (L "'\n'") = Ok i' /\ str_add i i' = Some k /\ str_value k = Some (L "a\n") /\ value_of (item_string k) = Ok j /\ str_value j = Some (L "a" ++ [10]%N)) /\
  (exists i i' k j, value_of (L """""""a""""""") = Ok i /\ value_of (L """""""" ++ [10]%N ++ L "b""""""") = Ok i' /\ str_value i' = Some (L "b") /\ str_add i i' = Some k /\ str_value k = Some (L "ab") /\
     value_of (item_string k) = Ok j /\ str_value j = Some (L "a" ++ [10]%N ++ L "b")).
Proof.
  split; [|split; [|split]].
  - eexists _, _. split; [vm_compute; reflexivity|]. split; [vm_compute; reflexivity|]. split; [vm_compute; reflexivity|]. intros j. vm_compute. discriminate.
  - eexists _, _, _. split; [vm_compute; reflexivity|]. split; [vm_compute; reflexivity|]. split; [vm_compute; reflexivity|]. split; [vm_compute; reflexivity|vm_compute; reflexivity].
  - eexists _, _, _, _. split; [vm_compute; reflexivity|]. split; [vm_compute; reflexivity|]. split; [vm_compute; reflexivity|]. split; [vm_compute; reflexivity|]. split; [vm_compute; reflexivity|vm_compute; reflexivity].
  - eexists _, _, _, _. split; [vm_compute; reflexivity|]. split; [vm_compute; reflexivity|]. split; [vm_compute; reflexivity|]. split; [vm_compute; reflexivity|]. split; [vm_compute; reflexivity|]. split; [vm_compute; reflexivity|vm_compute; reflexivity].
Qed.
Print Assumptions C47_string_refuted.

(** C47, floats: an operation on a float item, or the division of an integer item, whose result is the float [f].  If the
    left operand was written without a sign, or the result has none, the item has the value [f] and its text stands for [f].
    Missing: see the refutation. *)
Definition is_number (a : item) : Prop := match a with IVal (SFloat _ _) _ | IVal (SInt _ _) _ => True | _ => False end.
Definition unsigned (w : str) : Prop := forall r, w <> 43%N :: r /\ w <> 45%N :: r.
Definition not_below_zero (f : fval) : Prop := match f with FDec neg _ _ | FInf neg => neg = false | FNan _ => True end.
Theorem C47_float_partial : forall a f, is_number a -> unsigned (item_string a) \/ not_below_zero f ->
  exists i g, float_new float_text a f = Some i /\ float_value i = Some f /\ denotes (item_string i) (PFloat g) /\ feq f g.
Proof.
  intros a f N H. apply float_new_ok; [exact N|]. destruct H as [H|H]; [left|right; exact H]. apply no_sign, H.
Qed.
Print Assumptions C47_float_partial.

(** [value("-1.5") * 2] is written "--3.0", [value("+0.5") * -0.0] is written "+-0.0", which the parser
    refuses (defect). *)
Theorem C47_float_refuted :
  (exists a k, value_of (L "-1.5") = Ok a /\ float_new float_text a (FDec true 3 0) = Some k /\ item_string k = L "--3.0" /\ forall j, value_of (item_string k) <> Ok j) /\
  (exists a k, value_of (L "+0.5") = Ok a /\ float_new float_text a (FDec true 0 0) = Some k /\ item_string k = L "+-0.0" /\ forall j, value_of (item_string k) <> Ok j).
Proof.
  split; eexists _, _; (split; [vm_compute; reflexivity|]); (split; [vm_compute; reflexivity|]); (split; [vm_compute; reflexivity|]); intros j; vm_compute; discriminate.
Qed.
Print Assumptions C47_float_refuted.

(** C47, dates and times: [d + delta], [d - delta], [d.replace(...)], where the result is the date, time or datetime [r]. *)
Theorem C47_dates : forall tr,
  (forall d raw r, real_day (d_year r) (d_month r) (d_day r) -> exists i, date_new (IVal (SDate d raw) tr) r = Some i /\ date_value i = Some r /\ denotes (item_string i) (PDate r)) /\
  (forall t raw r, valid_time_p r -> exists i, time_new (IVal (STime t raw) tr) r = Some i /\ time_value i = Some r /\ denotes (item_string i) (PTime r)) /\
  (forall d raw r, real_day (d_year (dt_date r)) (d_month (dt_date r)) (d_day (dt_date r)) -> valid_time_p (dt_time r) -> off_ok (dt_off r) ->
     exists i, datetime_new (IVal (SDateTime d raw) tr) r = Some i /\ datetime_value i = Some r /\ denotes (item_string i) (PDateTime r)).
Proof.
  intros tr. split; [|split].
  - intros d raw r H. eexists. split; [reflexivity|]. split; [reflexivity|]. apply dn_date, date_written, H.
  - intros t raw r H. eexists. split; [reflexivity|]. split; [reflexivity|]. apply dn_time, time_written, H.
  - intros d raw r H1 H2 H3. eexists. split; [reflexivity|]. split; [reflexivity|]. apply dn_datetime, datetime_iso. split; [exact H1|split; assumption].
Qed.
Print Assumptions C47_dates.

(** Cases. *)
Example C47_example :
  (exists i j k, value_of (L """a\t""") = Ok i /\ value_of (L """b""") = Ok j /\ str_add i j = Some k /\ item_string k = L """a\tb""" /\ str_value k = Some (L "a" ++ [9]%N ++ L "b")) /\
  (exists a k, value_of (L "+1.5") = Ok a /\ float_new float_text a (FDec false 3 0) = Some k /\ item_string k = L "+3.0") /\
  (exists a k, value_of (L "1979-05-27T07:32:00Z") = Ok a /\ datetime_new a (mkDT (mkDate 1979 5 28) (mkTime 7 32 0 0) (Some 0%Z)) = Some k /\ item_string k = L "1979-05-28T07:32:00+00:00").
Proof.
  split; [|split].
  - eexists _, _, _. split; [vm_compute; reflexivity|]. split; [vm_compute; reflexivity|]. split; [vm_compute; reflexivity|]. split; [vm_compute; reflexivity|vm_compute; reflexivity].
  - eexists _, _. split; [vm_compute; reflexivity|]. split; [vm_compute; reflexivity|vm_compute; reflexivity].
  - eexists _, _. split; [vm_compute; reflexivity|]. split; [vm_compute; reflexivity|vm_compute; reflexivity].
Qed.
