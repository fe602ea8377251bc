(** C39: a parsed document says exactly what its lines say.  The specification is
    Meaning.v ([document_says]: the lines of a text and their statements; [said]:
    the values and tables the statements put at absolute paths; [below]); [walk] is
    [doc[k1][k2]...] (Lookup.v), [value_of] is [tomlkit.value]. *)
From Verif Require Import Base Source Utils Items Container Parser Api Grammar Meaning Lookup LookupSays.

(** The items [i] and [v] are equal, the white space and comment around them apart. *)
Definition same (i v : item) : Prop := set_trivia default_trivia i = set_trivia default_trivia v.

(** Whatever is looked up in a document without arrays of tables:
    - a value found is the value [tomlkit.value] reads from the text of the one line
      that speaks about that path, or about anything below it;
    - a table found is the subject of some line, and of no line giving it a value;
    - a missing key is one no line speaks about. *)
Theorem C39_lookup_partial : forall s d, parse s = Ok d ->
  exists l, document_says true s l /\ (no_element l -> forall p,
    match walk d p with
    | Ok (FValue it rest) => exists q txt v, p = q ++ rest /\ below q (said [] l) = [([], Some txt)] /\ value_of txt = Ok v /\ same it v
    | Ok (FTable _) => (p <> [] -> below p (said [] l) <> []) /\ (forall txt, ~ In (p, Some txt) (said [] l))
    | Err (NonExistentKeyE _) => below p (said [] l) = []
    | Err FuelE => False
    | Err _ => True
    end).
Proof. exact document_answers. Qed.
Print Assumptions C39_lookup_partial.
(** In other words: every "names = text" line is answered by that value,... *)
Theorem C39_values_partial : forall s d, parse s = Ok d ->
  exists l, document_says true s l /\ (no_element l -> forall p txt, In (p, Some txt) (said [] l) ->
    match walk d p with
    | Ok (FValue it rest) => rest = [] /\ exists v, value_of txt = Ok v /\ same it v
    | Ok (FTable _) | Err (NonExistentKeyE _) | Err FuelE => False
    | Err _ => True
    end).
Proof. exact document_values. Qed.
Print Assumptions C39_values_partial.
(** ... and a string among them is the string its quotes and escapes spell. *)
Theorem C39_strings : forall x d m o t, value_of x = Ok (IVal (SStr d m o) t) -> exists basic ml, string_says basic ml x m.
Proof. exact value_string. Qed.
Print Assumptions C39_strings.
(** A value is read from its own text: wherever [_parse_value] reads the text [w],
    [tomlkit.value(w)] gives the same item. *)
Theorem C39_context : forall n st v st' w, parse_value false n st = (Ok v, st') -> Reader.moved w st st' -> value_of w = Ok v.
Proof. exact Local.value_local. Qed.
Print Assumptions C39_context.
(** Without "[[" in the text the condition on the lines holds. *)
Theorem C39_plain_partial : forall s d, parse s = Ok d -> (forall x y, s <> x ++ [91; 91]%N ++ y) ->
  exists l, document_says true s l /\ forall p,
    match walk d p with
    | Ok (FValue it rest) => exists q txt v, p = q ++ rest /\ below q (said [] l) = [([], Some txt)] /\ value_of txt = Ok v /\ same it v
    | Ok (FTable _) => (p <> [] -> below p (said [] l) <> []) /\ (forall txt, ~ In (p, Some txt) (said [] l))
    | Err (NonExistentKeyE _) => below p (said [] l) = []
    | Err FuelE => False
    | Err _ => True
    end.
Proof. exact plain_answers. Qed.
Print Assumptions C39_plain_partial.
(** The other errors occur: lines that contradict each other, in tables that are not
    next to each other, are accepted, and reading the table raises. *)
Theorem C39_contradiction_refuted :
  exists d, parse (L "[a.b]
[c]
[a]
b = 1
x = 2") = Ok d /\ walk d [L "a"; L "x"] = Err (KeyAlreadyPresentE (L "b")).
Proof. eexists. split; [vm_compute; reflexivity|vm_compute; reflexivity]. Qed.
Print Assumptions C39_contradiction_refuted.
Example C39_example : let s := L "a.b = ""x\u0041""
[t] # c
k = 2020-01-01  # d
[t.u]" in substr [91; 91]%N s = false /\ exists d, parse s = Ok d
  /\ (exists o t, walk d [L "a"; L "b"] = Ok (FValue (IVal (SStr SLB (L "xA") o) t) []))
  /\ (exists c, walk d [L "t"; L "u"] = Ok (FTable c)) /\ walk d [L "t"; L "b"] = Err (NonExistentKeyE (L "b")).
Proof.
  split; [vm_compute; reflexivity|]. eexists. split; [vm_compute; reflexivity|]. split; [eexists; eexists; vm_compute; reflexivity|]. split; [eexists; vm_compute; reflexivity|vm_compute; reflexivity].
Qed.
Print Assumptions C39_example.
