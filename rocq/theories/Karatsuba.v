(** Model of the Karatsuba multiplication and of squaring (nat.rs:1180-1575).

    The Rust code works through raw pointers into one buffer [z].  Here the
    buffer is a list and every access goes through [rd]/[wr], which return
    [Panic] when the access would leave the buffer: a theorem "= Ok .." is
    also a proof that no access is out of bounds. *)
From Coq Require Import ZArith List Lia Bool.
From Verif Require Import Words NatModel VecPrims.
Import ListNotations.
Open Scope Z_scope.

(** Reading and writing [n] words at offset [off] of a buffer. *)
Definition rd (z : list Z) (off n : nat) : res (list Z) :=
  if (off + n <=? length z)%nat then Ok (firstn n (skipn off z)) else Panic.
Definition wr (z : list Z) (off : nat) (l : list Z) : res (list Z) :=
  if (off + length l <=? length z)%nat
  then Ok (firstn off z ++ l ++ skipn (off + length l) z) else Panic.

(** Passing the pointer [z.add(off)] (with the shortened length) to a callee:
    it can only change the words from [off] on. *)
Definition on_suffix (off : nat) (z : list Z) (g : list Z -> res (list Z)) : res (list Z) :=
  if (off <=? length z)%nat
  then do r <- g (skipn off z); Ok (firstn off z ++ r) else Panic.

(** nat.rs:18-20, constants [KARATSUBA_THRESHOLD], [BASIC_SQRT_HRESHOLD],
    [KARATSUBA_SQRT_HRESHOLD]. *)
Definition KARATSUBA_THRESHOLD : nat := 40.
Definition BASIC_SQR_THRESHOLD : nat := 20.
Definition KARATSUBA_SQR_THRESHOLD : nat := 260.

(** nat.rs:1181-1186 [karatsuba_add]: z[off..] += x over n words, the carry
    runs through n/2 more. *)
Definition karatsuba_add (z : list Z) (off : nat) (x : list Z) (n : nat) : res (list Z) :=
  do a <- rd z off n;
  let '(s, c) := add_vv a x in
  do z <- wr z off s;
  if c =? 0 then Ok z
  else
    do a2 <- rd z (off + n) (n / 2);
    wr z (off + n) (fst (add_vw a2 c)).

(** nat.rs:1188-1193 [karatsuba_sub]. *)
Definition karatsuba_sub (z : list Z) (off : nat) (x : list Z) (n : nat) : res (list Z) :=
  do a <- rd z off n;
  let '(s, c) := sub_vv a x in
  do z <- wr z off s;
  if c =? 0 then Ok z
  else
    do a2 <- rd z (off + n) (n / 2);
    wr z (off + n) (fst (sub_vw a2 c)).

(** nat.rs:1197-1201, rows of [basic_mul] from row [i] on. *)
Fixpoint basic_mul_rows (z : list Z) (i : nat) (x y : list Z) : res (list Z) :=
  match y with
  | [] => Ok z
  | d :: y' =>
      do z' <-
        (if d =? 0 then Ok z
         else
           do a <- rd z i (length x);
           let '(s, c) := add_mul_vvw a x d in
           do z1 <- wr z i s;
           wr z1 (length x + i) [c]);
      basic_mul_rows z' (S i) x y'
  end.

(** nat.rs:1195-1202 [basic_mul]. *)
Definition basic_mul (z x y : list Z) : res (list Z) :=
  do z0 <- wr z 0 (repeat 0 (length x + length y));
  basic_mul_rows z0 0 x y.

(** nat.rs:1204-1215 [mul_add_ww] (the result vector [z]). *)
Definition mul_add_ww (x : list Z) (y r : Z) : list Z :=
  if is_nan x || (y =? 0) then [r]
  else let '(l, c) := mul_add_vww x y r in trim (l ++ [c]).

(** |x1 - x0| with the sign of the difference (nat.rs:1363-1378): the second
    subtraction overwrites the first when that one borrows. *)
Definition abs_diff (a b : list Z) : list Z * Z :=
  let '(d, c) := sub_vv a b in
  if c =? 0 then (d, 1) else (fst (sub_vv b a), -1).

(** nat.rs:1319-1418 [karatsuba].  [x] and [y] have the same length; they are
    passed by value because the words they point to are never written: they lie
    outside [z] or, for [xd] and [yd], below the sub-buffer passed along. *)
Fixpoint karatsuba (fuel : nat) (z x y : list Z) : res (list Z) :=
  let n := length y in
  if Nat.odd n || (n <? KARATSUBA_THRESHOLD)%nat || (n <? 2)%nat then basic_mul z x y
  else
    match fuel with
    | O => Fuel
    | S f =>
        let n2 := (n / 2)%nat in
        let '(x0, x1) := (firstn n2 x, skipn n2 x) in
        let '(y0, y1) := (firstn n2 y, skipn n2 y) in
        do z <- karatsuba f z x0 y0;
        do z <- on_suffix n z (fun zs => karatsuba f zs x1 y1);
        let '(xd, s1) := abs_diff x1 x0 in
        do z <- wr z (2 * n) xd;
        let '(yd, s2) := abs_diff y0 y1 in
        do z <- wr z (2 * n + n2) yd;
        do z <- on_suffix (3 * n) z (fun zs => karatsuba f zs xd yd);
        if (length z <? 4 * n)%nat then Panic
        else
          let tmp := Nat.min (2 * n) (length z - 4 * n) in
          do cp <- rd z 0 tmp;
          do z <- wr z (4 * n) cp;
          do r0 <- rd z (4 * n) n;
          do z <- karatsuba_add z n2 r0 n;
          do r1 <- rd z (5 * n) n;
          do z <- karatsuba_add z n2 r1 n;
          do p <- rd z (3 * n) n;
          if s1 * s2 >? 0 then karatsuba_add z n2 p n else karatsuba_sub z n2 p n
    end.

(** nat.rs:1424-1432 [karatsuba_len]; [i] counts the halvings. *)
Fixpoint karatsuba_len_loop (fuel n i threshold : nat) : nat :=
  match fuel with
  | O => n * 2 ^ i
  | S f => if (threshold <? n)%nat then karatsuba_len_loop f (n / 2) (S i) threshold else n * 2 ^ i
  end.
Definition karatsuba_len (n threshold : nat) : nat := karatsuba_len_loop n n 0 threshold.

(** nat.rs:1492-1502 [add_at]. *)
Definition add_at (z x : list Z) (i : nat) : res (list Z) :=
  match x with
  | [] => Ok z
  | _ =>
      do a <- rd z i (length x);
      let '(s, c) := add_vv a x in
      do z <- wr z i s;
      if c =? 0 then Ok z
      else
        let j := (i + length x)%nat in
        if (j <? length z)%nat then
          do a2 <- rd z j (length z - j);
          wr z j (fst (add_vw a2 c))
        else Ok z
  end.

(** nat.rs:1284-1303: the chunks xi = x[i..i+k] of the rest of x. [drop_zeros]
    is the slice without its high zero words. *)
Fixpoint kchunks (mk : list Z -> list Z -> res (list Z)) (fuel k i : nat) (xs y0 y1 z : list Z)
  : res (list Z) :=
  match xs with
  | [] => Ok z
  | _ =>
      match fuel with
      | O => Fuel
      | S f =>
          let xi := drop_zeros (firstn k xs) in
          do t <- mk xi y0;
          do z <- add_at z t i;
          do t <- mk xi y1;
          do z <- add_at z t (i + k);
          kchunks mk f k (i + k) (skipn k xs) y0 y1 z
      end
  end.

(** [z.truncate(len)] followed by zeroing from index [k2] (nat.rs:1252-1253). *)
Definition clean (z : list Z) (len k2 : nat) : list Z :=
  firstn k2 z ++ repeat 0 (len - k2).

(** nat.rs:1223-1312 [mul_by_karatsuba]; the first branch is the call with
    exchanged operands. *)
Fixpoint mul_by_karatsuba (fuel : nat) (x y : list Z) : res (list Z) :=
  let '(x, y) := if (length x <? length y)%nat then (y, x) else (x, y) in
  let '(m, n) := (length x, length y) in
  match y with
  | [] => Ok []
  | [d] => Ok (mul_add_ww x d 0)
  | _ =>
      if (n <? KARATSUBA_THRESHOLD)%nat then
        do z <- basic_mul (repeat 0 (m + n)) x y;
        Ok (trim z)
      else
        match fuel with
        | O => Fuel
        | S f =>
            let k := karatsuba_len n KARATSUBA_THRESHOLD in
            let '(x0, y0) := (firstn k x, firstn k y) in
            do z <- karatsuba k (repeat 0 (Nat.max (6 * k) (m + n))) x0 y0;
            let z := clean z (m + n) (2 * k) in
            do z <-
              (if (k <? n)%nat || negb (m =? n)%nat then
                 let x0 := drop_zeros x0 in
                 let y1 := skipn k y in
                 do t <- mul_by_karatsuba f x0 y1;
                 do z <- add_at z t k;
                 let y0 := drop_zeros y0 in
                 kchunks (mul_by_karatsuba f) m k k (skipn k x) y0 y1 z
               else Ok z);
            Ok (trim z)
        end
  end.

(** nat.rs:1217-1221 [mul_karatsuba]; [Nat::from(Vec<u32>)] (nat.rs:2038-2046)
    trims again. *)
Definition mul_karatsuba (a b : list Z) : res (list Z) :=
  do v <- mul_by_karatsuba (length a + length b) a b; Ok (trim v).

(** nat.rs:1437-1453: the squares go to [z], the cross products to [t]. *)
Definition square_words (x : list Z) : list Z :=
  flat_map (fun d => let '(z1, z0) := mul_ww d d in [z0; z1]) x.
(** nat.rs:1442-1453, rows [i], [i+1], ... ; [ds] are the words of [x] from
    index [i] on. *)
Fixpoint sqr_rows (t x : list Z) (i : nat) (ds : list Z) : res (list Z) :=
  match ds with
  | [] => Ok t
  | d :: ds' =>
      do a <- rd t i i;
      let '(s, c) := add_mul_vvw a (firstn i x) d in
      do t1 <- wr t i s;
      do t2 <- wr t1 (2 * i) [c];
      sqr_rows t2 x (S i) ds'
  end.
(** nat.rs:1434-1457 [basic_sqr].  Reading [x\[0\]] of an empty [x] would be
    out of bounds. *)
Definition basic_sqr (z x : list Z) : res (list Z) :=
  match x with
  | [] => Panic
  | _ :: ds =>
      let n := length x in
      do z <- wr z 0 (square_words x);
      do t <- sqr_rows (repeat 0 (2 * n)) x 1 ds;
      do mid <- rd t 1 (2 * n - 2);
      let '(sh, c) := shl_vu_inner mid 1 in
      do t <- wr t 1 sh;
      do t <- wr t (2 * n - 1) [c];
      let len := Nat.min (length z) (2 * n) in
      do a <- rd z 0 len;
      do b <- rd t 0 len;
      wr z 0 (fst (add_vv a b))
  end.

(** nat.rs:1459-1489 [karatsuba_sqr]. *)
Fixpoint karatsuba_sqr (fuel : nat) (z x : list Z) : res (list Z) :=
  let n := length x in
  if Nat.odd n || (n <? KARATSUBA_THRESHOLD)%nat || (n <? 2)%nat then basic_sqr z x
  else
    match fuel with
    | O => Fuel
    | S f =>
        let n2 := (n / 2)%nat in
        let '(x0, x1) := (firstn n2 x, skipn n2 x) in
        do z <- karatsuba_sqr f z x0;
        do z <- on_suffix n z (fun zs => karatsuba_sqr f zs x1);
        let '(xd, _) := abs_diff x1 x0 in
        do z <- wr z (2 * n) xd;
        do z <- on_suffix (3 * n) z (fun zs => karatsuba_sqr f zs xd);
        if (length z <? 4 * n)%nat then Panic
        else
          let tmp := Nat.min (length z - 4 * n) (2 * n) in
          do cp <- rd z 0 tmp;
          do z <- wr z (4 * n) cp;
          do r0 <- rd z (4 * n) n;
          do z <- karatsuba_add z n2 r0 n;
          do r1 <- rd z (5 * n) n;
          do z <- karatsuba_add z n2 r1 n;
          do p <- rd z (3 * n) n;
          karatsuba_sub z n2 p n
    end.

(** nat.rs:1513-1574 [sqr_v]. *)
Fixpoint sqr_v (fuel : nat) (x : list Z) : res (list Z) :=
  let n := length x in
  match x with
  | [] => Ok []
  | [d] => let '(z1, z0) := mul_ww d d in Ok (trim [z0; z1])
  | _ =>
      if (n <? BASIC_SQR_THRESHOLD)%nat then
        do z <- basic_mul (repeat 0 (2 * n)) x x; Ok (trim z)
      else if (n <? KARATSUBA_SQR_THRESHOLD)%nat then
        do z <- basic_sqr (repeat 0 (2 * n)) x; Ok (trim z)
      else
        match fuel with
        | O => Fuel
        | S f =>
            let k := karatsuba_len n KARATSUBA_SQR_THRESHOLD in
            let x0 := firstn k x in
            do z <- karatsuba_sqr k (repeat 0 (Nat.max (k * 6) (n * 2))) x0;
            let z := clean z (2 * n) (2 * k) in
            do z <-
              (if (k <? n)%nat then
                 let x0 := drop_zeros x0 in
                 let x1 := skipn k x in
                 do t <- mul_by_karatsuba (length x0 + length x1) x0 x1;
                 do z <- add_at z t k;
                 do z <- add_at z t k;
                 do t <- sqr_v f x1;
                 add_at z t (2 * k)
               else Ok z);
            Ok (trim z)
        end
  end.

(** nat.rs:1505-1510 [sqr]. *)
Definition nat_sqr (a : list Z) : res (list Z) :=
  do v <- sqr_v (length a) a; Ok (trim v).
