(** Specification vocabulary: what the documentation of [std::fmt] says about
    the options of a format string. *)
From Coq Require Import ZArith String List Bool.
From Verif Require Import Words NatConv Formatter.
Import ListNotations.
Open Scope Z_scope.
Open Scope list_scope.

(** [body] filled with [c] to [w] characters. *)
Definition filled (c : Z) (a : alignment) (w : nat) (body : list Z) : list Z :=
  let n := (w - List.length body)%nat in
  match a with
  | Left => body ++ repeat c n
  | Right => repeat c n ++ body
  | Center => repeat c (n / 2) ++ body ++ repeat c (n - n / 2)
  end.
Definition wanted (o : options) : nat := match width o with Some w => w | None => 0 end.
(** The text of a primitive integer: the sign ('+' only if asked for), the
    prefix if asked for, the digits; filled up to the width, with zeros behind
    sign and prefix under the flag '0', else with the fill character, to the
    right unless aligned otherwise.  The precision is ignored. *)
Definition integer_text (o : options) (negative : bool) (prefix digits : list Z) : list Z :=
  let sign := if negative then str "-" else if plus o then str "+" else [] in
  let pre := if alternate o then prefix else [] in
  if zeros o then sign ++ pre ++ repeat 48 (wanted o - List.length (sign ++ pre ++ digits)) ++ digits
  else filled (fill o) (match align o with Some a => a | None => Right end) (wanted o) (sign ++ pre ++ digits).
(** The text of a string: cut to the precision, filled, to the left unless
    aligned otherwise. *)
Definition string_text (o : options) (s : list Z) : list Z :=
  filled (fill o) (match align o with Some a => a | None => Left end) (wanted o)
    (match precision o with Some p => firstn p s | None => s end).
