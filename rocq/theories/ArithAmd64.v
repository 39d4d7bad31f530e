(** Model of the SSE2 back end of the word-vector primitives,
    arith_amd64.rs.  It is selected by [cfg(rmath_sse2)] in arith.rs:6-7; the
    lines of build.rs that set the flag are commented out.  Conventions as in
    VecPrims.v: a function returns (words written, outgoing word), and the
    slice and pointer versions of one loop share a definition. *)
From Coq Require Import ZArith List Lia Bool.
From Verif Require Import Words NatModel VecPrims.
Import ListNotations.
Open Scope Z_scope.

(** A 64-bit MMX register: (upper lane, lower lane).  The three instructions
    the code uses, by their documentation: [_mm_set1_pi32], [_mm_mul_su32]
    (product of the lower lanes), [_mm_add_pi32] (lane by lane). *)
Definition mm_set1 (a : Z) : Z * Z := (a, a).
Definition mm_mul (a b : Z * Z) : Z * Z := ((snd a * snd b) / W, (snd a * snd b) mod W).
Definition mm_add (a b : Z * Z) : Z * Z := ((fst a + fst b) mod W, (snd a + snd b) mod W).

(** arith_amd64.rs:12-21 [mul_ww]: the register is stored and read back as
    (o[1], o[0]). *)
Definition sse_mul_ww (x y : Z) : Z * Z := mm_mul (mm_set1 x) (mm_set1 y).

(** arith_amd64.rs:25-36 [mul_add_www]: the sum [d] is computed, but line 33
    stores [c]. *)
Definition sse_mul_add_www (x y c : Z) : Z * Z :=
  let a := mm_set1 x in
  let b := mm_set1 y in
  let c := mm_set1 c in
  let tmp := mm_mul a b in
  let d := mm_add tmp c in
  c.

(** arith_amd64.rs:40-43 [div_ww] and 156-217 (the shifts) and 247-253
    [div_wvw] are the text of arith_generic.rs; their model is in VecPrims.v. *)

(** arith_amd64.rs:46-58 [add_vv], [add_vv_inner]. *)
Fixpoint sse_add_vv_loop (c : Z) (x y : list Z) : list Z * Z :=
  match x, y with
  | xt :: x', yt :: y' =>
      let '(c1, t) := adc c xt yt in
      let '(r, c') := sse_add_vv_loop c1 x' y' in
      (t :: r, c')
  | _, _ => ([], c)
  end.
Definition sse_add_vv := sse_add_vv_loop 0.

(** arith_amd64.rs:61-73 [sub_vv], [sub_vv_inner]. *)
Fixpoint sse_sub_vv_loop (c : Z) (x y : list Z) : list Z * Z :=
  match x, y with
  | xt :: x', yt :: y' =>
      let '(c1, t) := sbb c xt yt in
      let '(r, c') := sse_sub_vv_loop c1 x' y' in
      (t :: r, c')
  | _, _ => ([], c)
  end.
Definition sse_sub_vv := sse_sub_vv_loop 0.

(** arith_amd64.rs:75-95 [add_vw], [add_vw_inner]; [y] is the word added at
    index 0, 0 at the other indices. *)
Fixpoint sse_add_vw_loop (c y : Z) (x : list Z) : list Z * Z :=
  match x with
  | [] => ([], c)
  | xt :: x' =>
      let '(c1, t) := adc c xt y in
      let '(r, c') := sse_add_vw_loop c1 0 x' in
      (t :: r, c')
  end.
Definition sse_add_vw (x : list Z) (y : Z) := sse_add_vw_loop 0 y x.

(** arith_amd64.rs:115-137 [sub_vw], [sub_vw_inner]. *)
Fixpoint sse_sub_vw_loop (c y : Z) (x : list Z) : list Z * Z :=
  match x with
  | [] => ([], c)
  | xt :: x' =>
      let '(c1, t) := sbb c xt y in
      let '(r, c') := sse_sub_vw_loop c1 0 x' in
      (t :: r, c')
  end.
Definition sse_sub_vw (x : list Z) (y : Z) := sse_sub_vw_loop 0 y x.

(** arith_amd64.rs:97-112 [add_vw_large] and 139-154 [sub_vw_large]: without a
    carry the word is copied; [f] is the instruction. *)
Fixpoint sse_large_rest (f : Z -> Z -> Z -> Z * Z) (c : Z) (x : list Z) : list Z * Z :=
  match x with
  | [] => ([], c)
  | xt :: x' =>
      let '(c1, t) := if negb (c =? 0) then f c xt 0 else (0, xt) in
      let '(r, c') := sse_large_rest f c1 x' in
      (t :: r, c')
  end.
Definition sse_large (f : Z -> Z -> Z -> Z * Z) (x : list Z) (y : Z) : list Z * Z :=
  match x with
  | [] => ([], 0)
  | xt :: x' =>
      let '(c1, t) := f 0 xt y in
      let '(r, c') := sse_large_rest f c1 x' in
      (t :: r, c')
  end.
Definition sse_add_vw_large := sse_large adc.
Definition sse_sub_vw_large := sse_large sbb.

(** arith_amd64.rs:220-226 [mul_add_vww]. *)
Fixpoint sse_mul_add_vww (x : list Z) (y r : Z) : list Z * Z :=
  match x with
  | [] => ([], r)
  | xt :: x' =>
      let '(cc, t) := sse_mul_add_www xt y r in
      let '(l, c') := sse_mul_add_vww x' y cc in
      (t :: l, c')
  end.

(** arith_amd64.rs:228-245 [add_mul_vvw], [add_mul_vvw_inner]; [z1 + cc] is a
    u32 addition (it panics on overflow in debug builds). *)
Fixpoint sse_add_mul_loop (c : Z) (z x : list Z) (y : Z) : list Z * Z :=
  match z, x with
  | zt :: z', xt :: x' =>
      let '(z1, z0) := sse_mul_add_www xt y zt in
      let '(cc, lo) := adc 0 z0 c in
      let '(l, c') := sse_add_mul_loop ((z1 + cc) mod W) z' x' y in
      (lo :: l, c')
  | _, _ => ([], c)
  end.
Definition sse_add_mul_vvw := sse_add_mul_loop 0.
