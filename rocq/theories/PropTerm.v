(** Property theorems: termination (C02) and the exceptions of [parse] (C03).

    Vocabulary: recursion and loops of the model take a fuel argument; [FuelE] is the
    result when it is used up. [parse s] runs with fuel 4 * |s| + 16. *)
From Verif Require Import Base Source Utils Items Container Arrays Parser Lemmas Reader Linecol Wf Errors Fuel FuelParse Mono.
From Coq Require Import ZifyBool ZifyNat ZifyN.
Open Scope nat_scope.

(** Parsing a document or a value never runs out of fuel, and giving more fuel never
    changes the result: the unbounded recursion of the parser ends on every text. *)
Theorem C02_parse_terminates : forall s n, 4 * List.length s + 16 <= n ->
  fst (parse_doc false n (start s)) = parse s /\ parse s <> Err FuelE.
Proof. intros s n H. split; [exact (parse_fuel_indep n s H)|exact (parse_gen_fuel false s)]. Qed.
Print Assumptions C02_parse_terminates.
Theorem C02_value_terminates : forall s, value_of s <> Err FuelE.
Proof. exact value_of_fuel. Qed.
Print Assumptions C02_value_terminates.
(** Appending to, and assigning into, any container ends, with any more fuel giving the same result. *)
Theorem C02_append_terminates : forall c k it n, app_fuel c k it <= n ->
  append n Own false c k it true = cappend false c k it /\ cappend false c k it <> Err FuelE.
Proof. exact append_total. Qed.
Print Assumptions C02_append_terminates.
Theorem C02_setitem_terminates : forall c k v, set_item c k v <> Err FuelE.
Proof. exact set_item_fuel. Qed.
Print Assumptions C02_setitem_terminates.
(** Progress: parsing a value consumes at least one character, whatever the fuel, and
    no parsing step ever moves backwards on success or failure. *)
Theorem C02_value_progress : forall n st v st', parse_value false n st = (Ok v, st') ->
  List.length (p_rest st') < List.length (p_rest st).
Proof. intros n st v st' H. exact (prog_values n false st v st' H). Qed.
Print Assumptions C02_value_progress.
Example C02_ex : parse (L "a = [[[1, {b = '''x'''}]]" ++ [chLF] ++ L "]") <> Err FuelE /\
  (exists c, parse (L "a = [[[1, {b = '''x'''}]]" ++ [chLF] ++ L "]") = Ok c).
Proof. split; [vm_compute; discriminate|eexists; vm_compute; reflexivity]. Qed.

(** What [parse] can raise: a TOMLKitError, or one of two builtin exceptions
    ([UnmodelledE]: the run appends to an array of tables through a proxy, which the
    tree model does not follow). *)
Theorem C03_exceptions_partial : forall s e, parse s = Err e ->
  is_tomlkit_error e = true \/ e = OverflowErrorE \/ e = AttributeErrorE \/ e = UnmodelledE.
Proof. exact parse_errors. Qed.
Print Assumptions C03_exceptions_partial.
(** Only TOMLKitError, for the texts without: an indented header line; a line starting
    with two brackets; ten digits in a row. *)
Theorem C03_only_tomlkit_partial : forall s e, no_indented_bracket s -> no_double_bracket s -> no_long_number s ->
  parse s = Err e -> is_tomlkit_error e = true.
Proof. exact parse_errors_only. Qed.
Print Assumptions C03_only_tomlkit_partial.
(** Without [no_long_number] only OverflowError is added, without the bracket conditions only the others. *)
Theorem C03_overflow_partial : forall s e, no_indented_bracket s -> no_double_bracket s ->
  parse s = Err e -> is_tomlkit_error e = true \/ e = OverflowErrorE.
Proof. exact parse_errors_overflow. Qed.
Print Assumptions C03_overflow_partial.
Theorem C03_nolong_partial : forall s e, no_long_number s ->
  parse s = Err e -> is_tomlkit_error e = true \/ e = AttributeErrorE \/ e = UnmodelledE.
Proof. exact parse_errors_nolong. Qed.
Print Assumptions C03_nolong_partial.

(** The excluded cases do occur. *)
Theorem C03_overflow_refuted : parse (L "x = 99999999999-01-01") = Err OverflowErrorE.
Proof. vm_compute. reflexivity. Qed.
Print Assumptions C03_overflow_refuted.
Theorem C03_attribute_refuted :
  parse (L "[z]" ++ [chLF] ++ L " [z.a.b.c.x]" ++ [chLF] ++ L " [z.a.b.d]" ++ [chLF] ++ L " [z.a.b.c.y]" ++ [chLF]) = Err AttributeErrorE.
Proof. vm_compute. reflexivity. Qed.
Print Assumptions C03_attribute_refuted.
Example C03_only_tomlkit_ex : let s := L "[t]" ++ [chLF] ++ L "a = true" ++ [chLF] ++ L "a = false" in
  no_indented_bracket s /\ no_double_bracket s /\ no_long_number s /\ parse s = Err (KeyAlreadyPresentE (L "a")).
Proof.
  intros s. assert (H : ~ In chLBR (tl s)) by (vm_compute; intuition discriminate).
  destruct (one_bracket_ok (tl s) H) as [A B]. split; [exact A|]. split; [exact B|]. split; [|vm_compute; reflexivity].
  apply no_digits_ok. intros c Hc. vm_compute in Hc. repeat (destruct Hc as [<-|Hc]; [reflexivity|]). destruct Hc.
Qed.
