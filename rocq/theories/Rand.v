(** Model of the random number generators, /repo/src/rand.

    The element type is a parameter: [B] is its width in bits (32 for u32, 64
    for u64 and for usize on a 64-bit target); a value is a [Z] in [0, 2^B).
    A [Seed] is the result its [seed()] call gives. *)
From Coq Require Import ZArith List Bool.
From Verif Require Import Words.
Import ListNotations.
Open Scope Z_scope.

(** rand_error.rs:4-11, [RandErrKind] (texts are in Errors.v). *)
Inductive rand_err := NoNewRandSeedGen | NoNewRandNumberGen | DivisorIsZero | InvalidRngPara | InnerErr.

(** rand/mod.rs:75, [Result<T>]. *)
Inductive rres (A : Type) : Type := ROk (a : A) | RErr (e : rand_err).
Arguments ROk {A} a.
Arguments RErr {A} e.

Definition rmap {A C : Type} (f : A -> C) (r : rres A) : rres C :=
  match r with ROk a => ROk (f a) | RErr e => RErr e end.

(** rand/mod.rs:82-109, [PrimitiveType::mask]: the shift count is taken modulo
    the width. *)
Definition pmask (B w : Z) : Z :=
  if w =? B then 2 ^ B - 1 else 2 ^ (w mod B) - 1.

(** Checked or wrapping addition of the element type: [checks] is whether
    overflow checks are compiled in. *)
Definition padd (checks : bool) (B a b : Z) : res Z :=
  if (a + b <? 2 ^ B) then Ok (a + b) else if checks then Panic else Ok ((a + b) mod 2 ^ B).

(** Element access of a slice; out of range panics. *)
Definition get (l : list Z) (i : nat) : res Z :=
  match nth_error l i with Some x => Ok x | None => Panic end.

(** Element assignment. *)
Fixpoint upd (l : list Z) (i : nat) (v : Z) : list Z :=
  match l, i with
  | [], _ => []
  | _ :: l', O => v :: l'
  | x :: l', S i' => x :: upd l' i' v
  end.

(* ------------------------------------------------------------------ *)
(** * linear_congruential_rand.rs *)

(** linear_congruential_rand.rs:10-15. *)
Record lcg := Lcg { lcg_a : Z; lcg_c : Z; lcg_m : Z; lcg_x : Z }.

(** linear_congruential_rand.rs:22-30. *)
Definition lcg_new (sd : rres Z) (a c m : Z) : rres lcg :=
  if m =? 0 then RErr DivisorIsZero else rmap (fun x => Lcg a c m x) sd.

(** linear_congruential_rand.rs:36-40, [gen] (it never returns [Err]): the
    product and the sum wrap. *)
Definition lcg_gen (B : Z) (g : lcg) : Z * lcg :=
  let tmp := (((lcg_a g * lcg_x g) mod 2 ^ B + lcg_c g) mod 2 ^ B) mod lcg_m g in
  (tmp, Lcg (lcg_a g) (lcg_c g) (lcg_m g) tmp).

(** linear_congruential_rand.rs:42-46. *)
Definition lcg_reset (sd : rres Z) (g : lcg) : rres unit * lcg :=
  match sd with
  | ROk x => (ROk tt, Lcg (lcg_a g) (lcg_c g) (lcg_m g) x)
  | RErr e => (RErr e, g)
  end.

(** linear_congruential_rand.rs:58-62 and 68-72, both with u32. *)
Definition minstd_rand0 (sd : rres Z) : rres lcg := lcg_new sd 16807 0 2147483647.
Definition minstd_rand (sd : rres Z) : rres lcg := lcg_new sd 48271 0 2147483647.

(* ------------------------------------------------------------------ *)
(** * mersenne_twister_rand.rs *)

(** mersenne_twister_rand.rs:10-28, the constant fields. *)
Record mt_par := MtPar {
  mt_w : Z; mt_n : Z; mt_m : Z; mt_r : Z; mt_a : Z;
  mt_u : Z; mt_d : Z; mt_s : Z; mt_b : Z; mt_t : Z; mt_c : Z; mt_l : Z; mt_f : Z }.

(** mersenne_twister_rand.rs:10-28; [mt_seed] is (fresh?, seed): the Rust
    field is Err(seed) before initialisation and Ok(seed) after it. *)
Record mt := Mt { mt_p : mt_par; mt_idx : Z; mt_fresh : bool; mt_seed : Z; mt_state : list Z }.

(** mersenne_twister_rand.rs:47-74, the parameter tests. *)
Definition mt_check (B : Z) (p : mt_par) : bool :=
  negb ((mt_w p =? 0) || (mt_m p =? 0) || (mt_r p =? 0) || (mt_a p =? 0)
        || ((mt_u p =? 0) && (mt_d p =? 0)) || ((mt_s p =? 0) && (mt_b p =? 0))
        || ((mt_t p =? 0) && (mt_c p =? 0)) || (mt_l p =? 0) || (mt_f p =? 0))
  && negb (mt_n p <? mt_m p) && negb (B <? mt_w p) && negb (mt_w p <=? mt_r p)
  && negb (mt_w p <=? mt_u p) && negb (mt_w p <=? mt_s p) && negb (mt_w p <=? mt_t p)
  && negb (mt_w p <=? mt_l p)
  && negb (pmask B (mt_w p) <? mt_a p) && negb (pmask B (mt_w p) <? mt_d p)
  && negb (pmask B (mt_w p) <? mt_b p) && negb (pmask B (mt_w p) <? mt_c p)
  && negb (pmask B (mt_w p) <? mt_f p).

(** mersenne_twister_rand.rs:45-97, [new]. *)
Definition mt_new (B : Z) (sd : rres Z) (p : mt_par) : rres mt :=
  if mt_check B p then rmap (fun x => Mt p (mt_n p) true x []) sd else RErr InvalidRngPara.

(** mersenne_twister_rand.rs:112-118, the loop body over i in 1..n: [cnt]
    rounds from [i] on. *)
Fixpoint mt_fill (B : Z) (p : mt_par) (cnt : nat) (i last : Z) : list Z :=
  match cnt with
  | O => []
  | S cnt' =>
      let l1 := Z.lxor last (last / 2 ^ (mt_w p - 2)) in
      let l2 := (l1 * mt_f p) mod 2 ^ B in
      let l3 := (l2 + i) mod 2 ^ B in
      let l4 := Z.land l3 (pmask B (mt_w p)) in
      l4 :: mt_fill B p cnt' (i + 1) l4
  end.

(** mersenne_twister_rand.rs:103-124, [check_init].  [word_size - 2] would
    underflow for a word size of 1 (modelled as a panic; [new] does not let it
    happen). *)
Definition mt_check_init (B : Z) (g : mt) : res mt :=
  let p := mt_p g in
  if mt_fresh g then
    if (mt_w p <? 2) && (1 <? mt_n p) then Panic
    else
      let first := Z.land (mt_seed g) (pmask B (mt_w p)) in
      Ok (Mt p (mt_n p) false (mt_seed g)
            (first :: mt_fill B p (Z.to_nat (mt_n p - 1)) 1 first))
  else Ok g.

(** mersenne_twister_rand.rs:127-128, the masks: [!0 << r] and its complement. *)
Definition upper_mask (B r : Z) : Z := ((2 ^ B - 1) * 2 ^ r) mod 2 ^ B.
Definition lower_mask (B r : Z) : Z := 2 ^ B - 1 - upper_mask B r.

(** mersenne_twister_rand.rs:131-133, 138-139 and 143-145: element [i] from
    itself, element [i1] and element [j]. *)
Definition mt_twist (B : Z) (p : mt_par) (st : list Z) (i i1 j : nat) : res (list Z) :=
  do a <- get st i;
  do b <- get st i1;
  do c <- get st j;
  let y := Z.lor (Z.land a (upper_mask B (mt_r p))) (Z.land b (lower_mask B (mt_r p))) in
  Ok (upd st i (Z.lxor (Z.lxor c (y / 2)) (if Z.land y 1 >? 0 then mt_a p else 0))).

(** mersenne_twister_rand.rs:130-134 and 137-141: [cnt] rounds of the loops. *)
Fixpoint mt_twists (B : Z) (p : mt_par) (cnt : nat) (i j : nat) (st : list Z) : res (list Z) :=
  match cnt with
  | O => Ok st
  | S cnt' => do st' <- mt_twist B p st i (i + 1) j; mt_twists B p cnt' (i + 1) (j + 1) st'
  end.

(** mersenne_twister_rand.rs:126-147, [gen_rand]. *)
Definition mt_gen_rand (B : Z) (g : mt) : res mt :=
  let p := mt_p g in
  let k := Z.to_nat (mt_n p - mt_m p) in
  let n := Z.to_nat (mt_n p - 1) in
  let m := Z.to_nat (mt_m p) in
  do s1 <- mt_twists B p k 0 m (mt_state g);
  do s2 <- mt_twists B p (n - k) k 0 s1;
  do s3 <- mt_twist B p s2 n 0 (m - 1);
  Ok (Mt p 0 (mt_fresh g) (mt_seed g) s3).

(** mersenne_twister_rand.rs:157-161, the tempering: all shifts go right. *)
Definition mt_temper (p : mt_par) (z : Z) : Z :=
  let z1 := Z.lxor z (Z.land (z / 2 ^ mt_u p) (mt_d p)) in
  let z2 := Z.lxor z1 (Z.land (z1 / 2 ^ mt_s p) (mt_b p)) in
  let z3 := Z.lxor z2 (Z.land (z2 / 2 ^ mt_t p) (mt_c p)) in
  Z.lxor z3 (z3 / 2 ^ mt_l p).

(** mersenne_twister_rand.rs:151-165, [gen]. *)
Definition mt_gen (B : Z) (g : mt) : res (Z * mt) :=
  do g1 <- mt_check_init B g;
  do g2 <- (if mt_n (mt_p g1) <=? mt_idx g1 then mt_gen_rand B g1 else Ok g1);
  do z <- get (mt_state g2) (Z.to_nat (mt_idx g2));
  Ok (mt_temper (mt_p g2) z,
      Mt (mt_p g2) (mt_idx g2 + 1) (mt_fresh g2) (mt_seed g2) (mt_state g2)).

(** mersenne_twister_rand.rs:167-172, [reset]. *)
Definition mt_reset (B : Z) (sd : rres Z) (g : mt) : res (rres unit * mt) :=
  match sd with
  | ROk x =>
      do g' <- mt_check_init B (Mt (mt_p g) (mt_idx g) true x (mt_state g));
      Ok (ROk tt, g')
  | RErr e => Ok (RErr e, g)
  end.

(** mersenne_twister_rand.rs:183-189 and 194-200. *)
Definition mt19937_par : mt_par :=
  MtPar 32 624 397 31 2567483615 11 4294967295 7 2636928640 15 4022730752 18 1812433253.
Definition mt19937_64_par : mt_par :=
  MtPar 64 312 156 31 13043109905998158313 29 6148914691236517205 17 8202884508482404352
    37 18444473444759240704 43 6364136223846793005.

(* ------------------------------------------------------------------ *)
(** * lagged_fibonacci_rand.rs *)

(** lagged_fibonacci_rand.rs:12-21. *)
Record lfg := Lfg { lf_w : Z; lf_s : Z; lf_r : Z; lf_fresh : bool; lf_seed : Z;
                    lf_carry : Z; lf_idx : Z; lf_state : list Z }.

(** lagged_fibonacci_rand.rs:29-49, [new]. *)
Definition lf_new (B : Z) (sd : rres Z) (w s r : Z) : rres lfg :=
  if (w =? 0) || (s =? 0) || (r =? 0) then RErr InvalidRngPara
  else if r <=? s then RErr InvalidRngPara
  else if B <? w then RErr InvalidRngPara
  else rmap (fun x => Lfg w s r true x 0 0 []) sd.

(** lagged_fibonacci_rand.rs:81-84, the inner loop: [n] draws combined with
    growing factors. *)
Fixpoint lf_word (B : Z) (n : nat) (sum factor : Z) (g : lcg) : Z * lcg :=
  match n with
  | O => (sum, g)
  | S n' =>
      let '(x, g') := lcg_gen B g in
      lf_word B n' ((sum + (x * factor) mod 2 ^ B) mod 2 ^ B)
        ((factor * (if B <=? 32 then 0 else pmask B 32 + 1)) mod 2 ^ B) g'
  end.

(** lagged_fibonacci_rand.rs:79-86, the outer loop. *)
Fixpoint lf_fill (B w : Z) (cnt : nat) (g : lcg) : list Z :=
  match cnt with
  | O => []
  | S cnt' =>
      let '(x, g') := lf_word B (Z.to_nat ((w + 31) / 32)) 0 1 g in
      Z.land (pmask B w) x :: lf_fill B w cnt' g'
  end.

(** lagged_fibonacci_rand.rs:72-93, [check_init] (the [unwrap]s of the seed
    and of the generator cannot fail: the modulus is not 0 and the seed is
    there, in the [OnceSeed] of 53-68 that is asked once). *)
Definition lf_check_init (B : Z) (g : lfg) : lfg :=
  if lf_fresh g then
    let st := lf_fill B (lf_w g) (Z.to_nat (lf_r g)) (Lcg 40014 0 2147483563 (lf_seed g)) in
    Lfg (lf_w g) (lf_s g) (lf_r g) false (lf_seed g)
      (if last st 0 =? 0 then 1 else 0) 0 st
  else g.

(** lagged_fibonacci_rand.rs:97-115, [gen]. *)
Definition lf_gen (checks : bool) (B : Z) (g0 : lfg) : res (Z * lfg) :=
  let g := lf_check_init B g0 in
  do ps <- (if lf_idx g <? lf_s g
            then do t <- padd checks B (lf_r g) (lf_idx g); Ok ((t - lf_s g) mod 2 ^ B)
            else Ok (lf_idx g - lf_s g));
  do xps <- get (lf_state g) (Z.to_nat ps);
  do xid <- get (lf_state g) (Z.to_nat (lf_idx g));
  do sum <- padd checks B xid (lf_carry g);
  let '(xi, carry) :=
    if sum <=? xps
    then (((xps - xid) mod 2 ^ B - lf_carry g) mod 2 ^ B, 0)
    else
      let w := if lf_w g =? B then 0 else 2 ^ lf_w g in
      ((((w - xid) mod 2 ^ B - lf_carry g) mod 2 ^ B + xps) mod 2 ^ B, 1) in
  let idx' := lf_idx g + 1 in
  Ok (xi, Lfg (lf_w g) (lf_s g) (lf_r g) (lf_fresh g) (lf_seed g) carry
            (if lf_r g <=? idx' then 0 else idx') (upd (lf_state g) (Z.to_nat (lf_idx g)) xi)).

(** lagged_fibonacci_rand.rs:117-122, [reset]. *)
Definition lf_reset (B : Z) (sd : rres Z) (g : lfg) : rres unit * lfg :=
  match sd with
  | ROk x =>
      (ROk tt, lf_check_init B (Lfg (lf_w g) (lf_s g) (lf_r g) true x (lf_carry g) (lf_idx g) (lf_state g)))
  | RErr e => (RErr e, g)
  end.

(* ------------------------------------------------------------------ *)
(** * iter.rs *)

(** iter.rs:4-9: an iterator over any source; [gen] of the source is a
    function of its state. *)
Record iter (S : Type) := Iter { it_inner : S; it_err : option rand_err }.
Arguments Iter {S} _ _.
Arguments it_inner {S} _.
Arguments it_err {S} _.

(** iter.rs:14-20. *)
Definition iter_new {S : Type} (s : S) : iter S := Iter s None.

(** iter.rs:35-47, [next]. *)
Definition iter_next {S : Type} (gen : S -> rres Z * S) (it : iter S) : option Z * iter S :=
  match it_err it with
  | None =>
      match gen (it_inner it) with
      | (ROk x, s') => (Some x, Iter s' None)
      | (RErr e, s') => (None, Iter s' (Some e))
      end
  | Some _ => (None, it)
  end.

(** iter.rs:22-28. *)
Definition iter_last_error {S : Type} (it : iter S) : option rand_err := it_err it.
Definition iter_clear_error {S : Type} (it : iter S) : iter S := Iter (it_inner it) None.

(* ------------------------------------------------------------------ *)
(** * os/linux/mod.rs and crypto_rand.rs *)

(** os/linux/mod.rs:36-56, [BCrypt::gen_random]: [q] is the VecDeque, front
    first; [sys] is what the system call did ([None]: it failed, [Some bs]: it
    wrote [bs] to the front of the caller's buffer).  Gives success or failure,
    the caller's buffer and the new queue. *)
Definition gen_random (q : list Z) (sys : option (list Z)) (buf : list Z) : bool * list Z * list Z :=
  let buf1 := match sys with Some bs => bs ++ skipn (length bs) buf | None => buf end in
  let q1 := match sys with
            | Some bs => fold_left (fun q x => x :: q) (firstn (length bs) buf1) q
            | None => q
            end in
  if (length q1 <? length buf)%nat then (false, buf1, q1)
  else (true, firstn (length buf) (rev q1), firstn (length q1 - length buf) q1).

(** crypto_rand.rs:45-55, [CryptoRand::gen] of the portable build: [len]
    bytes, little endian. *)
Definition crypto_gen (len : nat) (q : list Z) (sys : option (list Z)) : rres Z * list Z :=
  let '(ok, buf, q') := gen_random q sys (repeat 0 len) in
  if ok then (ROk (fold_right (fun d acc => d + 256 * acc) 0 buf), q') else (RErr InnerErr, q').

(** default_rand.rs:24-27, [DefaultRand::gen] of the portable build: the state
    is xored with a new seed value. *)
Definition default_gen (state seed : Z) : Z * Z :=
  let s := Z.lxor state seed in (s, s).
