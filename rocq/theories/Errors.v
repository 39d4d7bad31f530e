(** Model of the error values: the kind and the text of every failure of
    /repo/src/bigint and /repo/src/rand (nat_err.rs, rat_err.rs, float_err.rs,
    rand_error.rs, parse_err.rs, os/windows/ntstatus.rs).

    The parsers and constructors of NatConv.v, BigInt.v, Rat.v, Decimal.v and
    Rand.v only say that there is an error; here is which one.  A text is a
    list of code points; a failure is [inr]. *)
From Coq Require Import Ascii String ZArith List Bool.
From Verif Require Import Words NatModel NatConv BigInt Rat Ieee Float Decimal Rand.
Import ListNotations.
Open Scope Z_scope.
Open Scope list_scope.

(* ------------------------------------------------------------------ *)
(** * Error values *)

(** [Box<dyn Error>]: made of a text (its [Display] is the text, its [source]
    nothing; [std::num::ParseFloatError] is used the same way), or one of the
    crate's own errors with the [Debug] text of its kind. *)
Inductive report := Plain (m : list Z) | Own (kind_text : list Z) (inner : option report).

(** nat_err.rs:5-9, rat_err.rs:27-31, float_err.rs:27-31, rand_error.rs:25-29. *)
Record failure (K : Type) : Type := Failure { kind : K; inner : option report }.
Arguments Failure {K} kind inner.
Arguments kind {K}.
Arguments inner {K}.

(** [new]: nat_err.rs:12-15, rat_err.rs:34-40, float_err.rs:34-40,
    rand_error.rs:32-38. *)
Definition failed {K : Type} (k : K) (r : report) : failure K := Failure k (Some r).

(** [Display]: nat_err.rs:22-29, rat_err.rs:47-54, float_err.rs:47-54,
    rand_error.rs:45-52. *)
Fixpoint shown (r : report) : list Z :=
  match r with
  | Plain m => m
  | Own k (Some r') => shown r'
  | Own k None => k
  end.
(** [Error::source]: nat_err.rs:31-38, rat_err.rs:56-63, float_err.rs:56-63,
    rand_error.rs:54-61: the source of the inner error. *)
Fixpoint source (r : report) : option report :=
  match r with
  | Plain _ => None
  | Own _ (Some r') => source r'
  | Own _ None => None
  end.
Definition as_report {K : Type} (dbg : K -> list Z) (e : failure K) : report := Own (dbg (kind e)) (inner e).

(** parse_err.rs:3-25, rat_err.rs:4-25, float_err.rs:4-25, rand_error.rs:4-23:
    the kinds and their [Debug]. *)
Inductive parse_kind := BeginWithIllegalChar | IllegalCharEncounter | InvalidParameters.
Definition parse_dbg (k : parse_kind) : list Z :=
  match k with
  | BeginWithIllegalChar => str "The string to be parsed begin with an illegal character"
  | IllegalCharEncounter => str "Illegal character encountered during parsing"
  | InvalidParameters => str "Invalid parameters"
  end.
Inductive rat_kind := DenominatorIsZero | NumeratorIsZero | RatParseStringWrong.
Definition rat_dbg (k : rat_kind) : list Z :=
  match k with
  | DenominatorIsZero => str "DenominatorIsZero"
  | NumeratorIsZero => str "NumeratorIsZero"
  | RatParseStringWrong => str "ParseStringWrong"
  end.
Inductive float_kind := ExponentOverflow | ExponentUnderflow | FloatParseStringWrong.
Definition float_dbg (k : float_kind) : list Z :=
  match k with
  | ExponentOverflow => str "ExponentOverflow"
  | ExponentUnderflow => str "ExponentUnderflow"
  | FloatParseStringWrong => str "ParseStringWrong"
  end.
Definition rand_dbg (k : rand_err) : list Z :=
  match k with
  | NoNewRandSeedGen => str "NoNewRandSeedGen"
  | NoNewRandNumberGen => str "NoNewRandNumberGen"
  | Rand.DivisorIsZero => str "DivisorIsZero"
  | InvalidRngPara => str "InvalidRngPara"
  | InnerErr => str "InnerErr"
  end.

(* ------------------------------------------------------------------ *)
(** * Nat and BigInt *)

(** nat.rs:261-295 [check_base]; [whole] is the text it was called with. *)
Fixpoint check_base_err (whole s : list Z) : (list Z * Z) + failure parse_kind :=
  match s with
  | [] => inr (failed BeginWithIllegalChar (Plain (str (match whole with [] => "empty string" | _ => "all char is +" end))))
  | c :: t =>
      if (c =? 43) || (c =? 32) then check_base_err whole t
      else if (48 <=? c) && (c <=? 57) then
        match t with
        | x :: u =>
            if c =? 48 then
              if x =? 111 then inl (u, 8)
              else if (x =? 98) || (x =? 66) then inl (u, 2)
              else if (x =? 120) || (x =? 88) then inl (u, 16)
              else inr (failed BeginWithIllegalChar (Plain (str "begin with illegal char " ++ [c; x])))
            else inl (s, 10)
        | [] => inl (s, 10)
        end
      else inr (failed BeginWithIllegalChar (Plain (str "begin with illegal char " ++ [c])))
  end.

(** The only way out of the loops of nat.rs:306-311, 327-330, 348-365 and
    378-382 before the end of the text: the first character they meet that is
    not a digit. *)
Fixpoint stops_at (dig : Z -> option Z) (s : list Z) : option Z :=
  match s with
  | [] => None
  | c :: s' => match dig c with None => Some c | Some _ => stops_at dig s' end
  end.
Definition illegal (c : Z) : failure parse_kind := failed IllegalCharEncounter (Plain (str "illegal char " ++ [c])).
(** nat.rs:297-322 reads forwards behind the leading zeros. *)
Definition dec_err (s : list Z) : option (failure parse_kind) := option_map illegal (stops_at dec_digit (trim_start0 s)).
(** nat.rs:324-396: the other three read backwards. *)
Definition pow2_err (dig : Z -> option Z) (s : list Z) : option (failure parse_kind) := option_map illegal (stops_at dig (rev s)).

(** nat.rs:2097-2113 [from_str]. *)
Definition body_err (s : list Z) (b : Z) : option (failure parse_kind) :=
  if b =? 2 then pow2_err bin_digit s
  else if b =? 8 then pow2_err oct_digit s
  else if b =? 10 then dec_err s
  else pow2_err hex_digit s.
Definition nat_parse_err (s : list Z) : option (failure parse_kind) :=
  match check_base_err (trim_ws s) (trim_ws s) with
  | inr e => Some e
  | inl (s', b) => body_err s' b
  end.
(** bigint.rs:951-979 [from_str]. *)
Definition int_parse_err (s : list Z) : option (failure parse_kind) :=
  match trim_ws s with
  | [] => Some (failed BeginWithIllegalChar (Plain (str "empty string")))
  | c :: s' => nat_parse_err (if c =? 45 then s' else c :: s')
  end.
(** nat.rs:1954-1957. *)
Definition prime_err (bits : Z) : option (failure parse_kind) :=
  if bits <? 2 then Some (failed InvalidParameters (Plain (str "prime size must at least 2-bits"))) else None.

(* ------------------------------------------------------------------ *)
(** * Rat *)

Definition zero_denominator : failure rat_kind := failed DenominatorIsZero (Plain []).
(** rat.rs:45-48 and 58-60; 363-367. *)
Definition frac_err (n d : Z) : option (failure rat_kind) := if d =? 0 then Some zero_denominator else None.
Definition frac_bigint_err (n d : bigint) : option (failure rat_kind) :=
  if nat_eq_u32 (bnat d) 0 then Some zero_denominator else None.
Definition inv_err (x : rat) : option (failure rat_kind) :=
  if r_is_nan x then None
  else if nat_eq_u32 (bnat (rnum x)) 0 then Some (failed NumeratorIsZero (Plain (str "It cannot to inverse zero")))
  else None.

(** A failed part makes the whole fail: rat.rs:710-717. *)
Definition wrap_rat (e : failure parse_kind) : failure rat_kind := failed RatParseStringWrong (as_report parse_dbg e).
(** rat.rs:677-730; [parse_f64] is [f64::from_str] with the text of its error. *)
Definition rat_parse_err (parse_f64 : list Z -> Z + list Z) (s : list Z) : option (failure rat_kind) :=
  let s := trim_ws s in
  match s with
  | [] => Some (failed RatParseStringWrong (Plain (str "empty string")))
  | _ :: _ =>
      match find_char 46 s with
      | Some _ =>
          match parse_f64 s with
          | inr m => Some (failed RatParseStringWrong (Plain m))
          | inl f => if f_is_nan 52 11 f then Some (failed RatParseStringWrong (Plain (s ++ str " is not a number"))) else None
          end
      | None =>
          let '(u, v) := match find_char 47 s with Some (u, v) => (u, Some v) | None => (s, None) end in
          let b := match v with Some v => b_from_str v | None => Some (b_from_u32 1) end in
          match int_parse_err u with
          | Some e => Some (wrap_rat e)
          | None =>
              match match v with Some v => int_parse_err v | None => None end with
              | Some e => Some (wrap_rat e)
              | None =>
                  match b_from_str u, b with
                  | Some a, Some b =>
                      if b_is_nan a || b_is_nan b then Some (failed RatParseStringWrong (Plain (str "`" ++ s ++ str "` is not a number")))
                      else if nat_eq_u32 (bnat b) 0 then Some zero_denominator
                      else None
                  | _, _ => None
                  end
              end
          end
      end
  end.

(* ------------------------------------------------------------------ *)
(** * Float *)

Definition wrap_float {K : Type} (dbg : K -> list Z) (e : failure K) : failure float_kind := failed FloatParseStringWrong (as_report dbg e).
(** float_fmt.rs:183-213: what goes wrong with the exponent [es]. *)
Definition exp_err (es : list Z) : res (option (failure float_kind)) :=
  match int_parse_err es with
  | Some e => Ok (Some (wrap_float parse_dbg e))
  | None =>
      match b_from_str es with
      | None => Ok None
      | Some e =>
          if b_lt e (b_from_i64 min_exp) then do t <- b_fmt_display e; Ok (Some (failed ExponentUnderflow (Plain (str "exp: " ++ t))))
          else if b_lt (b_from_i64 max_exp) e then do t <- b_fmt_display e; Ok (Some (failed ExponentOverflow (Plain (str "exp: " ++ t))))
          else Ok None
      end
  end.
(** float_fmt.rs:156-253 [from_str]. *)
Definition float_parse_err (s : list Z) : res (option (failure float_kind)) :=
  let s := trim_ws s in
  match s with
  | [] => Ok (Some (failed FloatParseStringWrong (Plain (str "empty string"))))
  | _ :: _ =>
      let dot := find_char 46 s in
      let le := find_char 101 s in
      let ue := find_char 69 s in
      match le, ue with
      | Some _, Some _ => Ok (Some (failed FloatParseStringWrong (Plain (str "invalid string"))))
      | _, _ =>
          match dot, le, ue with
          | None, None, None => Ok (option_map (wrap_float parse_dbg) (int_parse_err s))
          | _, _, _ =>
              let parts := match le with Some p => Some p | None => ue end in
              do x <- match parts with Some (_, c :: es) => exp_err (c :: es) | _ => Ok None end;
              match x with
              | Some e => Ok (Some e)
              | None =>
                  match split_exp s with
                  | None => Ok None
                  | Some (u, e) =>
                      let '(nu, e) := match find_char 46 u with
                                      | Some (a, b) => (a ++ b, e - byte_len b)
                                      | None => (u, e)
                                      end in
                      let '(nu, de) := if e <? 0 then (nu, 49 :: repeat 48 (Z.to_nat (- e)))
                                       else (nu ++ repeat 48 (Z.to_nat e), []) in
                      match int_parse_err nu, int_parse_err de with
                      | Some e, _ => Ok (Some (wrap_float parse_dbg e))
                      | None, Some e => Ok (Some (wrap_float parse_dbg e))
                      | None, None =>
                          match b_from_str nu, b_from_str de with
                          | Some n, Some d => Ok (option_map (wrap_float rat_dbg) (frac_bigint_err n d))
                          | _, _ => Ok None
                          end
                      end
                  end
              end
          end
      end
  end.

(* ------------------------------------------------------------------ *)
(** * Random number generators *)

Definition bad_par (m : list Z) : failure rand_err := failed InvalidRngPara (Plain m).
(** [T::bits_len()] printed with [{:?}]: rand/mod.rs:82-109, u32 or 64 bits. *)
Definition bits_text (B : Z) : list Z := if B =? 32 then str "32" else str "64".
(** linear_congruential_rand.rs:22-24. *)
Definition lcg_new_err (m : Z) : option (failure rand_err) :=
  if m =? 0 then Some (failed Rand.DivisorIsZero (Plain [])) else None.
(** lagged_fibonacci_rand.rs:29-35. *)
Definition lf_new_err (B w s r : Z) : option (failure rand_err) :=
  if (w =? 0) || (s =? 0) || (r =? 0) then Some (bad_par (str "all parameters cannot be the 0"))
  else if r <=? s then Some (bad_par (str "s must be less than the r"))
  else if B <? w then Some (bad_par (str "w must be less than or equal to " ++ bits_text B))
  else None.
(** mersenne_twister_rand.rs:47-74. *)
Definition mt_new_err (B : Z) (p : mt_par) : option (failure rand_err) :=
  if (mt_w p =? 0) || (mt_m p =? 0) || (mt_r p =? 0) || (mt_a p =? 0)
     || ((mt_u p =? 0) && (mt_d p =? 0)) || ((mt_s p =? 0) && (mt_b p =? 0))
     || ((mt_t p =? 0) && (mt_c p =? 0)) || (mt_l p =? 0) || (mt_f p =? 0)
  then Some (bad_par (str "all parameters cannot be the 0"))
  else if mt_n p <? mt_m p then Some (bad_par (str "m must be satisfy the relation: m <= n"))
  else if B <? mt_w p then Some (bad_par (str "w must be satisfy the relation: m <= " ++ bits_text B))
  else if mt_w p <=? mt_r p then Some (bad_par (str "r must be less than w"))
  else if mt_w p <=? mt_u p then Some (bad_par (str "u must be less than w"))
  else if mt_w p <=? mt_s p then Some (bad_par (str "s must be less than w"))
  else if mt_w p <=? mt_t p then Some (bad_par (str "t must be less than w"))
  else if mt_w p <=? mt_l p then Some (bad_par (str "l must be less than w"))
  else if pmask B (mt_w p) <? mt_a p then Some (bad_par (str "a must be less than or equal to ((1<<w) - 1)"))
  else if pmask B (mt_w p) <? mt_d p then Some (bad_par (str "d must be less than  or equal to ((1<<w) - 1)"))
  else if pmask B (mt_w p) <? mt_b p then Some (bad_par (str "b must be less than  or equal to ((1<<w) - 1)"))
  else if pmask B (mt_w p) <? mt_c p then Some (bad_par (str "c must be less than  or equal to ((1<<w) - 1)"))
  else if pmask B (mt_w p) <? mt_f p then Some (bad_par (str "f must be less than  or equal to ((1<<w) - 1)"))
  else None.
(** default_rand_amd64.rs:26,48, default_seed_amd64.rs:28,52, default_seed.rs:65:
    the kind the step functions of Rand.v return comes with this text. *)
Definition no_number : failure rand_err := failed NoNewRandNumberGen (Plain []).
Definition no_seed : failure rand_err := failed NoNewRandSeedGen (Plain []).
Definition once_only : failure rand_err := failed NoNewRandSeedGen (Plain (str "OnceSeed only generate seed once")).

(** ntstatus.rs:7-17: the status codes as i32. *)
Definition st_invalid_parameter : Z := 3221225485 - 2 ^ 32.
Definition st_invalid_handle : Z := 3221225480 - 2 ^ 32.
Definition st_not_found : Z := 3221226021 - 2 ^ 32.
Definition st_no_memory : Z := 3221225495 - 2 ^ 32.
(** ntstatus.rs:66-83 [msg_map]. *)
Definition nt_msg (st : Z) : list Z :=
  if st =? st_invalid_handle then str "invalid handle was specified"
  else if st =? st_no_memory then str "Not enough virtual memory or paging file quota is available to complete the specified operation"
  else if st =? st_invalid_parameter then str "An invalid parameter was passed to a service or function"
  else if st =? st_not_found then str "The object not found"
  else [].
(** ntstatus.rs:86-91: [{:#x}] of an i32 prints its 32 bits. *)
Definition nt_kind_text (st : Z) : list Z := str "code: " ++ fmt_lower_hex true [st mod 2 ^ 32] ++ str ", msg: " ++ nt_msg st.
(** ntstatus.rs:40-51 with the texts of bcrypt.rs:86 and 136, then
    crypto_rand.rs:22-23 and 49. *)
Definition nt_err (st : Z) (call : list Z) : option (failure rand_err) :=
  if st =? 0 then None else Some (failed InnerErr (Plain (nt_kind_text st ++ str ", source: " ++ call))).
