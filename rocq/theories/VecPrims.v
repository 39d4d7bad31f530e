(** Model of the word-vector primitives, arith_generic.rs.  Each Rust function
    writes [z] and returns an outgoing word; the model takes the source words
    and returns (words written, outgoing word).  The slice versions zip [z],
    [x] and [y]; the callers pass vectors of one length, which is what the
    model assumes for [z] (it is as long as the shortest source). The pointer
    versions ([..._inner]) run the same loop over [n] words and share the
    definition. *)
From Coq Require Import ZArith List Lia Bool.
From Verif Require Import Words NatModel.
Import ListNotations.
Open Scope Z_scope.

Definition bit_of (b : bool) : Z := if b then 1 else 0.

(** arith_generic.rs:14-17 [mul_ww] and 21-25 [mul_add_www]: (high, low). *)
Definition mul_ww (x y : Z) : Z * Z := ((x * y) / W, (x * y) mod W).
Definition mul_add_www (x y c : Z) : Z * Z := ((x * y + c) / W, (x * y + c) mod W).

(** arith_generic.rs:34-38 [div_ww]; [as u32] truncates the quotient; division
    by zero panics. *)
Definition div_ww (u1 u0 v : Z) : res (Z * Z) :=
  if v =? 0 then Panic else Ok (((u1 * W + u0) / v) mod W, (u1 * W + u0) mod v).

(** arith_generic.rs:42-58 [add_vv], [add_vv_inner]. *)
Fixpoint add_vv_loop (c : Z) (x y : list Z) : list Z * Z :=
  match x, y with
  | xt :: x', yt :: y' =>
      let '(t0, c0) := ovf_add xt yt in
      let '(t, c1) := ovf_add t0 c in
      let '(r, c') := add_vv_loop (bit_of (c0 || c1)) x' y' in
      (t :: r, c')
  | _, _ => ([], c)
  end.
Definition add_vv := add_vv_loop 0.

(** arith_generic.rs:62-78 [sub_vv], [sub_vv_inner]. *)
Fixpoint sub_vv_loop (c : Z) (x y : list Z) : list Z * Z :=
  match x, y with
  | xt :: x', yt :: y' =>
      let '(t0, c0) := ovf_sub xt yt in
      let '(t, c1) := ovf_sub t0 c in
      let '(r, c') := sub_vv_loop (bit_of (c0 || c1)) x' y' in
      (t :: r, c')
  | _, _ => ([], c)
  end.
Definition sub_vv := sub_vv_loop 0.

(** arith_generic.rs:80-94 [add_vw], [add_vw_inner]. *)
Fixpoint add_vw (x : list Z) (y : Z) : list Z * Z :=
  match x with
  | [] => ([], y)
  | xt :: x' =>
      let '(t, c) := ovf_add xt y in
      let '(r, c') := add_vw x' (bit_of c) in
      (t :: r, c')
  end.

(** arith_generic.rs:96-107 [add_vw_large]. *)
Fixpoint add_vw_large (x : list Z) (y : Z) : list Z * Z :=
  match x with
  | [] => ([], y)
  | xt :: x' =>
      if y =? 0 then let '(r, c') := add_vw_large x' 0 in (xt :: r, c')
      else
        let '(t, c) := ovf_add xt y in
        let '(r, c') := add_vw_large x' (bit_of c) in
        (t :: r, c')
  end.

(** arith_generic.rs:109-123 [sub_vw], [sub_vw_inner]. *)
Fixpoint sub_vw (x : list Z) (y : Z) : list Z * Z :=
  match x with
  | [] => ([], y)
  | xt :: x' =>
      let '(t, c) := ovf_sub xt y in
      let '(r, c') := sub_vw x' (bit_of c) in
      (t :: r, c')
  end.

(** arith_generic.rs:125-136 [sub_vw_large]. *)
Fixpoint sub_vw_large (x : list Z) (y : Z) : list Z * Z :=
  match x with
  | [] => ([], y)
  | xt :: x' =>
      if y =? 0 then let '(r, c') := sub_vw_large x' 0 in (xt :: r, c')
      else
        let '(t, c) := ovf_sub xt y in
        let '(r, c') := sub_vw_large x' (bit_of c) in
        (t :: r, c')
  end.

(** arith_generic.rs:147-150 and 163-166: word i is x[i] << s | x[i-1] >> ss;
    [prev] is x[i-1].  The Rust loop runs from the top, so that an in-place
    shift reads x[i-1] before it is overwritten. *)
Fixpoint shl_words (s ss prev : Z) (x : list Z) : list Z :=
  match x with
  | [] => []
  | a :: x' => Z.lor ((a * 2 ^ s) mod W) (prev / 2 ^ ss) :: shl_words s ss a x'
  end.
Definition shl_body (s ss : Z) (x : list Z) : list Z :=
  match x with
  | [] => []
  | a :: x' => (a * 2 ^ s) mod W :: shl_words s ss a x'
  end.

(** arith_generic.rs:154-168 [shl_vu_inner]. *)
Definition shl_vu_inner (x : list Z) (s : Z) : list Z * Z :=
  if (s =? 0) || is_nan x then (x, 0)
  else
    let s := s mod 32 in
    let ss := (32 - s) mod 32 in
    (shl_body s ss x, last x 0 / 2 ^ ss).

(** arith_generic.rs:138-152 [shl_vu]: line 146 shifts the outgoing word by
    [s] instead of [ss]. *)
Definition shl_vu (x : list Z) (s : Z) : list Z * Z :=
  if (s =? 0) || is_nan x then (x, 0)
  else
    let s := s mod 32 in
    let ss := (32 - s) mod 32 in
    (shl_body s ss x, last x 0 / 2 ^ s).

(** arith_generic.rs:170-200 [shr_vu], [shr_vu_inner]. *)
Fixpoint shr_words (s ss : Z) (x : list Z) : list Z :=
  match x with
  | [] => []
  | [a] => [a / 2 ^ s]
  | a :: ((b :: _) as x') => Z.lor (a / 2 ^ s) ((b * 2 ^ ss) mod W) :: shr_words s ss x'
  end.
Definition shr_vu (x : list Z) (s : Z) : list Z * Z :=
  if (s =? 0) || is_nan x then (x, 0)
  else
    let s := s mod 32 in
    let ss := (32 - s) mod 32 in
    (shr_words s ss x, (hd 0 x * 2 ^ ss) mod W).

(** arith_generic.rs:202-208 [mul_add_vww]. *)
Fixpoint mul_add_vww (x : list Z) (y r : Z) : list Z * Z :=
  match x with
  | [] => ([], r)
  | xt :: x' =>
      let '(cc, t) := mul_add_www xt y r in
      let '(l, c') := mul_add_vww x' y cc in
      (t :: l, c')
  end.

(** arith_generic.rs:211-227 [add_mul_vvw], [add_mul_vvw_inner].  [1 + z1] is
    a u32 addition (it panics on overflow in debug builds), so it is reduced
    here. *)
Fixpoint add_mul_loop (c : Z) (z x : list Z) (y : Z) : list Z * Z :=
  match z, x with
  | zt :: z', xt :: x' =>
      let '(z1, z0) := mul_add_www xt y zt in
      let '(lo, cc) := ovf_add z0 c in
      let '(l, c') := add_mul_loop (if cc then (1 + z1) mod W else z1) z' x' y in
      (lo :: l, c')
  | _, _ => ([], c)
  end.
Definition add_mul_vvw := add_mul_loop 0.

(** arith_generic.rs:229-235 [div_wvw]: goes from the least significant word
    up. *)
Fixpoint div_wvw (xn : Z) (x : list Z) (y : Z) : res (list Z * Z) :=
  match x with
  | [] => Ok ([], xn)
  | xt :: x' =>
      do '(q, r) <- div_ww xn xt y;
      do '(l, r') <- div_wvw r x' y;
      Ok (q :: l, r')
  end.
