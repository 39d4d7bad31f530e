(** Model of [Nat::exp] with its Montgomery, windowed and plain algorithms
    (nat.rs:1585-1854). *)
From Coq Require Import ZArith List Lia Bool.
From Verif Require Import Words NatModel VecPrims Karatsuba.
Import ListNotations.
Open Scope Z_scope.

(** nat.rs:1594-1603, rows of [montgomery] from row [i] on; [ys] are the words
    y[i..].  [k] is -1/m mod 2^32, [c] the running carry. *)
Fixpoint mont_rows (n i : nat) (ys z x m : list Z) (k c : Z) : res (list Z * Z) :=
  match ys with
  | [] => Ok (z, c)
  | d :: ys' =>
      do a <- rd z i n;
      let '(s, c2) := add_mul_vvw a x d in
      do z <- wr z i s;
      let t := (nth i z 0 * k) mod W in
      do a <- rd z i n;
      let '(s, c3) := add_mul_vvw a m t in
      do z <- wr z i s;
      let cx := (c + c2) mod W in
      let cy := (cx + c3) mod W in
      do z <- wr z (n + i) [cy];
      mont_rows n (S i) ys' z x m k (if (cx <? c2) || (cy <? c3) then 1 else 0)
  end.

(** nat.rs:1585-1618 [montgomery] (the new contents of [z]). *)
Definition montgomery (x y m : list Z) (k : Z) (n : nat) : res (list Z) :=
  if negb (length x =? n)%nat || negb (length y =? n)%nat || negb (length m =? n)%nat then Panic
  else
    do '(z, c) <- mont_rows n 0 y (repeat 0 (2 * n)) x m k 0;
    do hi <- rd z n n;
    if negb (c =? 0) then Ok (fst (sub_vv hi m)) else Ok hi.

(** nat.rs:1634-1640: Newton iteration for -1/m0 mod 2^32; the loop runs for
    i = 1, 2, 4, 8, 16. *)
Fixpoint newton_inv (cnt : nat) (k0 t : Z) : Z :=
  match cnt with
  | O => k0
  | S n => let t := (t * t) mod W in newton_inv n ((k0 * ((t + 1) mod W)) mod W) t
  end.
Definition mont_k0 (m0 : Z) : Z := (- newton_inv 5 ((2 - m0) mod W) ((m0 - 1) mod W)) mod W.

(** [v.resize(n, 0)] guarded by [len < n]. *)
Definition pad (l : list Z) (n : nat) : list Z := l ++ repeat 0 (n - length l).

(** nat.rs:1663-1665: powers[i] from powers[i-1] and powers[1]. *)
Fixpoint mont_powers (cnt : nat) (prev p1 m : list Z) (k : Z) (n : nat) : res (list (list Z)) :=
  match cnt with
  | O => Ok []
  | S c =>
      do p <- montgomery prev p1 m k n;
      do rest <- mont_powers c p p1 m k n;
      Ok (p :: rest)
  end.

(** nat.rs:1677-1692 and 1742-1764: the window loop of one exponent word, 4
    bits at a time; [skip] leaves out the four squarings of the very first
    window. *)
Fixpoint win_nibbles (sq : list Z -> res (list Z)) (mu : list Z -> list Z -> res (list Z))
    (powers : list (list Z)) (cnt : nat) (skip : bool) (yi : Z) (z : list Z) : res (list Z) :=
  match cnt with
  | O => Ok z
  | S c =>
      do z <- (if skip then Ok z
               else do z <- sq z; do z <- sq z; do z <- sq z; sq z);
      do z <- mu z (nth (Z.to_nat (yi / 2 ^ 28)) powers []);
      win_nibbles sq mu powers c false ((yi * 16) mod W) z
  end.
(** [ys]: the exponent words, most significant first. *)
Fixpoint win_words (sq : list Z -> res (list Z)) (mu : list Z -> list Z -> res (list Z))
    (powers : list (list Z)) (first : bool) (ys z : list Z) : res (list Z) :=
  match ys with
  | [] => Ok z
  | y :: ys' =>
      do z <- win_nibbles sq mu powers 8 first y z;
      win_words sq mu powers false ys' z
  end.

(** nat.rs:1621-1708 [exp_montogomery] (the new contents of [z]).  The two
    buffers change roles once per window, eight times per word, so at the end
    the result is in [zz] and is copied to [z]. *)
Definition exp_montgomery (x y m : list Z) : res (list Z) :=
  let n := length m in
  do x <- (if (n <? length x)%nat then nat_rem (trim x) m else Ok (trim x));
  let x := pad x n in
  let k := mont_k0 (hd 0 m) in
  do rr <- nat_rem (nat_shl (from_u32 1) (64 * Z.of_nat n)) m;
  let rr := pad rr n in
  let one := pad (from_u32 1) n in
  do p0 <- montgomery one rr m k n;
  do p1 <- montgomery x rr m k n;
  do ps <- mont_powers 14 p1 p1 m k n;
  let powers := p0 :: p1 :: ps in
  do z <- win_words (fun z => montgomery z z m k n) (fun z p => montgomery z p m k n)
            powers true (rev y) p0;
  do z <- montgomery z one m k n;
  do z <- (if nat_ge z m then
             let z := nat_sub z m in
             if nat_ge z m then nat_rem z m else Ok z
           else Ok z);
  Ok (trim z).

(** [sqr_v] and [mul_by_karatsuba] with a recursion budget that suffices
    (KaraFacts2.v). *)
Definition sqr_vec (x : list Z) : res (list Z) := sqr_v (length x) x.
Definition mul_vec (x y : list Z) : res (list Z) := mul_by_karatsuba (length x + length y) x y.

(** nat.rs:1720-1730: the table of powers x^0 .. x^15, two entries per step. *)
Fixpoint win_powers (cnt i : nat) (tbl : list (list Z)) (x m : list Z) : res (list (list Z)) :=
  match cnt with
  | O => Ok tbl
  | S c =>
      do p <- sqr_vec (nth (i / 2) tbl []);
      do p <- nat_rem (trim p) m;
      do p1 <- mul_vec p x;
      do p1 <- nat_rem (trim p1) m;
      win_powers c (i + 2) (tbl ++ [p; p1]) x m
  end.

(** nat.rs:1710-1769 [exp_windowed]. *)
Definition exp_windowed (x y m : list Z) : res (list Z) :=
  do powers <- win_powers 7 2 [from_u32 1; trim x] x m;
  do z <- win_words (fun z => do s <- sqr_vec z; nat_rem s m) (fun z p => do s <- mul_vec z p; nat_rem s m)
            powers true (rev y) (from_u32 1);
  Ok (trim z).

(** nat.rs:1814-1828 and 1832-1848: square and multiply over [cnt] bits of [v],
    from the top; no reduction when the modulus is 0. *)
Fixpoint exp_bits (cnt : nat) (v : Z) (z x n : list Z) : res (list Z) :=
  match cnt with
  | O => Ok z
  | S c =>
      do z <- sqr_vec z;
      do z <- (if Z.testbit v 31 then mul_vec z x else Ok z);
      do z <- (if (length n =? 1)%nat && (hd 0 n =? 0) then Ok z else nat_rem (trim z) n);
      exp_bits c ((v * 2) mod W) z x n
  end.
Fixpoint exp_words (ys z x n : list Z) : res (list Z) :=
  match ys with
  | [] => Ok z
  | y :: ys' => do z <- exp_bits 32 y z x n; exp_words ys' z x n
  end.

(** nat.rs:1771-1854 [exp].  [checks] says whether arithmetic overflow checks
    are on (a debug build): then [v <<= shift] (nat.rs:1807) panics when the
    shift count is 32, or 33 for an exponent whose last word is 0; without
    checks the count is taken modulo 32 and [32 - shift] modulo 2^32. *)
Definition nat_exp (checks : bool) (x b n : list Z) : res (list Z) :=
  if is_nan x || is_nan b || is_nan n then Ok nan
  else if (length n =? 1)%nat && (hd 0 n =? 1) then Ok [0]
  else if (length b =? 1)%nat && (hd 0 b =? 0) then Ok [1]
  else if (length b =? 1)%nat && (hd 0 b =? 1) then
    if (length n =? 1)%nat && (hd 0 n =? 0) then Ok (trim x) else nat_rem (trim x) n
  else if ((1 <? length x)%nat || (1 <? hd 0 x)) && (1 <? length b)%nat
          && ((1 <? length n)%nat || (0 <? hd 0 n)) then
    if Z.odd (hd 0 n) then exp_montgomery x b n else exp_windowed x b n
  else
    let v := last b 0 in
    let shift := leading_zeros v + 1 in
    if checks && (32 <=? shift) then Panic
    else
      let v' := (v * 2 ^ (shift mod 32)) mod W in
      do z <- exp_bits (Z.to_nat ((32 - shift) mod W)) v' x x n;
      do z <- exp_words (tl (rev b)) z x n;
      Ok (trim z).
