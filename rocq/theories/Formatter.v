(** Model of what the formatting traits read from the [Formatter] and what they
    write to it: the options of a format string such as [{:+#010x}]. *)
From Coq Require Import ZArith String List Bool.
From Verif Require Import Words NatModel NatConv BigInt Rat Float Decimal DebugFmt Errors.
Import ListNotations.
Open Scope Z_scope.
Open Scope list_scope.

(** The options of a [Formatter]: fill character, alignment, '+', '#', '0',
    width and precision. *)
Inductive alignment := Left | Center | Right.
Record options := Options { fill : Z; align : option alignment; plus : bool; alternate : bool;
  zeros : bool; width : option nat; precision : option nat }.

(** [write!(f, "{}", s)], the last line of every implementation below: the
    arguments are formatted with the options of the inner format string "{}",
    that is without any. *)
Definition write_text (f : options) (s : list Z) : list Z := s.

(** nat_macro.rs:22-50 with nat.rs:2115; nat.rs:2117-2160; 2162-2184. *)
Definition nat_show_lower_hex f a := write_text f (fmt_lower_hex (alternate f) a).
Definition nat_show_upper_hex f a := write_text f (fmt_upper_hex (alternate f) a).
Definition nat_show_binary f a := write_text f (fmt_binary (alternate f) a).
Definition nat_show_debug f a := write_text f (n_fmt_debug (alternate f) a).
Definition nat_show_octal f a := write_text f (fmt_octal (alternate f) a).
Definition nat_show f a := do s <- fmt_display a; Ok (write_text f s).

(** bigint_macro.rs:84-105 with bigint.rs:1055-1062. *)
Definition int_show_lower_hex f x := write_text f (b_fmt_lower_hex (alternate f) x).
Definition int_show_upper_hex f x := write_text f (b_fmt_upper_hex (alternate f) x).
Definition int_show_binary f x := write_text f (b_fmt_binary (alternate f) x).
Definition int_show_debug f x := write_text f (b_fmt_debug (alternate f) x).
Definition int_show_octal f x := write_text f (b_fmt_octal (alternate f) x).
Definition int_show f x := do s <- b_fmt_display x; Ok (write_text f s).

(** rat.rs:732-767. *)
Definition rat_show_lower_hex f x := write_text f (r_fmt_lower_hex (alternate f) x).
Definition rat_show_upper_hex f x := write_text f (r_fmt_upper_hex (alternate f) x).
Definition rat_show_binary f x := write_text f (r_fmt_binary (alternate f) x).
Definition rat_show_debug f x := write_text f (r_fmt_debug (alternate f) x).
Definition rat_show_octal f x := write_text f (r_fmt_octal (alternate f) x).
Definition rat_show f x := do s <- r_fmt_display x; Ok (write_text f s).

(** float_fmt.rs:110-129: [LowerExp] and [UpperExp] read the precision. *)
Definition float_show_exp (upper : bool) (f : options) (x : float) :=
  do s <- fl_fmt_exp upper (option_map Z.of_nat (precision f)) x; Ok (write_text f s).
(** float_fmt.rs:131-151: [Display] and [Debug] take that of the number. *)
Definition float_show (checks : bool) (f : options) (x : float) := do s <- fl_fmt_display checks x; Ok (write_text f s).

(** [Formatter::pad], which the standard library uses for a text: cut to the
    precision, then filled to the width, on the right unless told otherwise. *)
Definition pad (f : options) (s : list Z) : list Z :=
  let s := match precision f with Some p => firstn p s | None => s end in
  let n := match width f with Some w => (w - List.length s)%nat | None => 0%nat end in
  match align f with
  | Some Right => repeat (fill f) n ++ s
  | Some Center => repeat (fill f) (n / 2) ++ s ++ repeat (fill f) (n - n / 2)
  | _ => s ++ repeat (fill f) n
  end.
(** [Display] of the errors hands the formatter on to the inner error:
    nat_err.rs:22-29, rat_err.rs:47-54, float_err.rs:47-54,
    rand_error.rs:45-52.  [Debug] of a kind (without inner error) is written
    without options. *)
Fixpoint error_show (f : options) (r : report) : list Z :=
  match r with
  | Plain m => pad f m
  | Own k (Some r') => error_show f r'
  | Own k None => write_text f k
  end.
