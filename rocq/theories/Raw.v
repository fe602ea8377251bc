(** Raw: keys, values and pairs made from raw text (api.py [key_value], [boolean], [array]). *)
From Verif Require Import Base Source Utils Items Container Arrays Parser Api.
Open Scope nat_scope.

(** api.py:267-275 [key_value], with parser.py:301-346 (no comment is read; where the text ends is not looked at) *)
Definition key_value (src : str) : res (key * item) := fst (parse_key_value false (parse_fuel src) false (start src)).
(** api.py:104-106 [boolean]: [item(raw == "true")] *)
Definition boolean (raw : str) : item := api_bool (str_eqb raw (L "true")).
(** api.py:163-178 [array] *)
Definition array (raw : option str) : res item := value_of (match raw with None => L "[]" | Some raw => raw end).
(** container.py:177-341 and api.py:87 on a new document: [doc = document(); doc.append(key, item)] *)
Definition new_document (k : key) (it : item) : res container := cappend false (empty_cont false) (Some k) it.
