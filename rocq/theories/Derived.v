(** Derived: items computed from items: concatenated strings, results of float arithmetic,
    shifted dates and times.  The arithmetic itself (int, float, datetime of Python) is
    not modelled: the functions take its result. *)
From Verif Require Import Base Utils Items.

(** items.py:1807-1818 [String.__add__] with a String, [_new]: kind and trivia of the left one, the
    contents between the quotes concatenated. *)
Definition str_add (a b : item) : option item :=
  match a, b with
  | IVal (SStr t v o) tr, IVal (SStr _ v' o') _ => Some (IVal (SStr t (v ++ v') (o ++ o')) tr)
  | _, _ => None
  end.
(** the same with a plain [str], which has no [_original] *)
Definition str_add_plain (a : item) (s : str) : option item :=
  match a with
  | IVal (SStr t v o) tr => Some (IVal (SStr t (v ++ s) (o ++ s)) tr)
  | _ => None
  end.
(** items.py:700-705 [Float.__init__]: the regular expression "^[+\-].+$".  A raw text has no
    line break in it. *)
Definition float_sign (raw : str) : bool :=
  match raw with c :: _ :: _ => (c =? chPLUS) || (c =? chMINUS) | _ => false end.
(** [result >= 0] for a float: true of -0.0, false of nan. *)
Definition float_nonneg (f : fval) : bool :=
  match f with FDec neg m _ => negb neg || (m =? 0) | FInf neg => negb neg | FNan _ => false end.
(** items.py:726-733 [Float._new]; [repr] is Python's [str(result)]. *)
Definition float_new (repr : fval -> str) (a : item) (result : fval) : option item :=
  let mk sign tr := IVal (SFloat result ((if sign : bool then (if float_nonneg result then [chPLUS] else [chMINUS]) else []) ++ repr result)) tr in
  match a with
  | IVal (SFloat _ raw) tr => Some (mk (float_sign raw) tr)
  (** items.py:674-686: the division of an Integer gives a Float *)
  | IVal (SInt _ raw) tr => Some (mk (int_sign raw) tr)
  | _ => None
  end.
(** items.py:1016-1019 [Date._new]: [d + delta], [d - delta], [d.replace(...)] *)
Definition date_new (a : item) (result : date) : option item :=
  match a with IVal (SDate _ _) tr => Some (IVal (SDate result (iso_date result)) tr) | _ => None end.
(** items.py:1070-1084 [Time._new]: [t.replace(...)], without a time zone *)
Definition time_new (a : item) (result : time) : option item :=
  match a with IVal (STime _ _) tr => Some (IVal (STime result (iso_time result)) tr) | _ => None end.
(** items.py:930-944 [DateTime._new]: [d + delta], [d - delta], [d.replace(...)] *)
Definition datetime_new (a : item) (result : datetime) : option item :=
  match a with IVal (SDateTime _ _) tr => Some (IVal (SDateTime result (iso_datetime result)) tr) | _ => None end.
