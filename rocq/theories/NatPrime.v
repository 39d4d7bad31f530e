(** Model of random numbers, the primality test and prime generation on [Nat]
    (nat.rs:819-912, 939-1155, 1934-2026) and of [BigInt::random]
    (bigint.rs:706-716).

    The generator is the list of the outcomes its [gen] will give: [Some w] for
    a word, [None] for an error.  [Iter::next] (iter.rs:35-47) turns an error
    into [None] and stays there until [clear_error].  A computation that asks
    for more outcomes than the list has is [Fuel]; a terminating run of the code
    uses finitely many. *)
From Coq Require Import ZArith List Bool.
From Verif Require Import Words NatModel NatPow VecPrims Karatsuba NatExp BigInt NumBig.
Import ListNotations.
Open Scope Z_scope.

Definition rng : Type := list (option Z).

(** nat.rs:829-835: words until there are [n]; an error is cleared and the
    next outcome is asked for. *)
Fixpoint draw_words (g : rng) (n : nat) {struct g} : res (list Z * rng) :=
  match n with
  | O => Ok ([], g)
  | S n' =>
      match g with
      | [] => Fuel
      | None :: g' => draw_words g' n
      | Some x :: g' => do '(ws, rest) <- draw_words g' n'; Ok (x :: ws, rest)
      end
  end.

(** nat.rs:825-846: the loop of [random_inner]; [fuel] bounds the attempts. *)
Fixpoint random_loop (fuel : nat) (self : list Z) (mask : Z) (g : rng) : res (list Z * rng) :=
  match fuel with
  | O => Fuel
  | S f =>
      do '(v, g') <- draw_words g (length self);
      let v := set_last v (Z.land (last v 0) mask) in
      if nat_lt v self then Ok (v, g') else random_loop f self mask g'
  end.

(** nat.rs:819-847 [random_inner]. *)
Definition random_inner (self : list Z) (g : rng) : res (list Z * rng) :=
  let r := bits_len self mod 32 in
  let mask := if r =? 0 then W - 1 else 2 ^ r - 1 in
  random_loop (S (length g)) self mask g.

(** nat.rs:849-858 [random]. *)
Definition nat_random (self : list Z) (g : rng) : res (list Z * rng) :=
  if is_nan self || nat_eq_u32 self 0 then Ok (nan, g) else random_inner self g.

(** bigint.rs:706-716 [random]. *)
Definition b_random (x : bigint) (g : rng) : res (bigint * rng) :=
  if b_is_nan x || b_eq_u32 x 0 then Ok (b_nan, g)
  else
    do '(r, g') <- nat_random (bnat x) g;
    Ok (BI r (if nat_eq_u32 r 0 then false else bneg x), g').

(** nat.rs:874-890 [miller_rabin_witness]; [x] is xi_m1, the swap of the
    buffers is the changed argument. *)
Fixpoint mr_witness (t : nat) (x n n_m1 : list Z) : res bool :=
  match t with
  | O => Ok (negb (nat_eq_u32 x 1))
  | S t' =>
      do y <- sqr_vec x;
      do y <- rem_inner y n;
      if nat_eq_u32 y 1 && negb (nat_eq_u32 x 1) && negb (nat_eq x n_m1) then Ok true
      else mr_witness t' y n n_m1
  end.

(** nat.rs:903-909: [s] rounds. *)
Fixpoint mr_rounds (checks : bool) (s : nat) (n : list Z) (t : nat) (u n_m1 : list Z) (g : rng) : res (bool * rng) :=
  match s with
  | O => Ok (true, g)
  | S s' =>
      do '(a, g') <- random_inner n g;
      do x <- nat_exp checks a u n;
      do w <- mr_witness t x n n_m1;
      if w then Ok (false, g') else mr_rounds checks s' n t u n_m1 g'
  end.

(** nat.rs:896-912 [prime_validate_by_miller_rabin]. *)
Definition miller_rabin (checks : bool) (n : list Z) (s : nat) (g : rng) : res (bool * rng) :=
  let n_m1 := nat_sub_u32 (trim n) 1 in
  let t := trailling_zeros n_m1 in
  let u := nat_shr (trim n_m1) t in
  mr_rounds checks s n (Z.to_nat t) u n_m1 g.

(** nat.rs:957-985: the search for P.  [inl b]: the function returns [b];
    [inr p]: the loop was left with this P. *)
Fixpoint lucas_search (cnt : nat) (p : Z) (n : list Z) : res (bool + Z) :=
  match cnt with
  | O => Ok (inr p)
  | S c =>
      do j <- b_jacobi (BI [p * p - 4] false) (b_from_nat n);
      match j with
      | None => Ok (inl false)
      | Some j =>
          if j =? -1 then Ok (inr p)
          else if j =? 0 then Ok (inl ((length n =? 1)%nat && (hd 0 n =? p + 2)))
          else
            do sq <- (if p =? 40 then
                        do t <- nat_sqrt n; do t <- nat_sqr t; Ok (nat_eq t n)
                      else Ok false);
            if sq then Ok (inl false) else lucas_search c (p + 1) n
      end
  end.

(** nat.rs:1036-1067: one bit of s per step, from bit [i - 1] down to bit 0. *)
Fixpoint lucas_ladder (i : nat) (s vk vk1 n np nm2 : list Z) : res (list Z * list Z) :=
  match i with
  | O => Ok (vk, vk1)
  | S i' =>
      do t1 <- mul_vec vk vk1;
      let t1 := sub_inner (add_inner t1 n) np in
      do b <- is_set_bit s (Z.of_nat i');
      match b with
      | Some true =>
          do k <- nat_rem (trim t1) n;
          do t <- sqr_vec vk1;
          do k1 <- nat_rem (trim (add_inner t nm2)) n;
          lucas_ladder i' s k k1 n np nm2
      | _ =>
          do k1 <- nat_rem (trim t1) n;
          do t <- sqr_vec vk;
          do k <- nat_rem (trim (add_inner t nm2)) n;
          lucas_ladder i' s k k1 n np nm2
      end
  end.

(** nat.rs:1087-1101: V(2^t s) for the following t. *)
Fixpoint lucas_rounds (cnt : nat) (vk n : list Z) : res bool :=
  match cnt with
  | O => Ok false
  | S c =>
      if nat_eq_u32 vk 0 then Ok true
      else if (length vk =? 1)%nat && (hd 0 vk =? 2) then Ok false
      else
        do t <- sqr_vec vk;
        do v <- nat_rem (trim (nat_sub_u32 t 2)) n;
        lucas_rounds c v n
  end.

(** nat.rs:1000-1102: the test proper, after P has been chosen. *)
Definition lucas_test (n : list Z) (p : Z) : res bool :=
  let s := nat_add_u32 (trim n) 1 in
  let r := trailling_zeros s in
  let s := shr_inner s r in
  let nm2 := nat_sub_u32 (trim n) 2 in
  let np := from_u32 p in
  do '(vk, vk1) <- lucas_ladder (S (Z.to_nat (bits_len s))) s (from_u32 2) np n np nm2;
  do u0 <- (if nat_eq_u32 vk 2 || nat_eq vk nm2 then
              do t1 <- mul_vec vk np;
              do d <- nat_rem (trim (nat_sub t1 (nat_shl vk1 1))) n;
              Ok (nat_eq_u32 d 0)
            else Ok false);
  if u0 then Ok true else lucas_rounds (Z.to_nat (r - 1)) vk n.

(** nat.rs:939-1103 [prime_validate_by_lucas]; P runs from 3 to 10000. *)
Definition lucas (n : list Z) : res bool :=
  if is_nan n || nat_eq_u32 n 1 then Ok false
  else if Z.land (hd 0 n) 1 =? 0 then Ok (nat_eq_u32 n 2)
  else
    do f <- lucas_search (Z.to_nat 9998) 3 n;
    match f with
    | inl b => Ok b
    | inr p => lucas_test n p
    end.

(** nat.rs:1105-1112 [rem_inner_u32]; words most significant first. *)
Fixpoint rem_u32_loop (ws : list Z) (r rhs : Z) : Z :=
  match ws with [] => r | e :: ws' => rem_u32_loop ws' (Z.lor (r * W) e mod rhs) rhs end.
Definition rem_inner_u32 (a : list Z) (rhs : Z) : Z := rem_u32_loop (rev a) 0 rhs.

(** nat.rs:1123-1128: the mask of the primes below 128. *)
Definition prime_mask_bits : list Z :=
  [2; 3; 5; 7; 11; 13; 17; 19; 23; 29; 31; 37; 41; 43; 47; 53; 59; 61; 67;
   71; 73; 79; 83; 89; 97; 101; 103; 107; 109; 113; 127].
Definition prime_bit_mask : Z := fold_right (fun b m => Z.lor (2 ^ b) m) 0 prime_mask_bits.
(** nat.rs:1141-1142. *)
Definition primes_a : Z := 3 * 5 * 7 * 11 * 13 * 17 * 19 * 23 * 37.
Definition primes_b : Z := 29 * 31 * 41 * 43 * 47 * 53.

(** nat.rs:1118-1155 [probably_prime_test]. *)
Definition probably_prime (checks : bool) (self : list Z) (n : nat) (g : rng) : res (bool * rng) :=
  if is_nan self || nat_eq_u32 self 0 then Ok (false, g)
  else
    let x := hd 0 self in
    if (length self =? 1)%nat && (x <? 128) then Ok (negb (Z.land (2 ^ x) prime_bit_mask =? 0), g)
    else if Z.land x 1 =? 0 then Ok (false, g)
    else
      let ra := rem_inner_u32 self primes_a in
      let rb := rem_inner_u32 self primes_b in
      if (ra mod 3 =? 0) || (ra mod 5 =? 0) || (ra mod 7 =? 0) || (ra mod 11 =? 0) || (ra mod 13 =? 0)
         || (ra mod 17 =? 0) || (ra mod 19 =? 0) || (ra mod 23 =? 0) || (ra mod 37 =? 0)
         || (rb mod 29 =? 0) || (rb mod 31 =? 0) || (rb mod 41 =? 0) || (rb mod 43 =? 0) || (rb mod 47 =? 0) || (rb mod 53 =? 0)
      then Ok (false, g)
      else
        do '(m, g') <- miller_rabin checks self (n + 1) g;
        if m then do l <- lucas self; Ok (l, g') else Ok (false, g').

(** nat.rs:1934-1948 [rem_inner_u64]: two words at a time, most significant
    first. *)
Fixpoint rem_u64_loop (ws : list Z) (r rhs : Z) : Z :=
  match ws with
  | [] => r
  | [a] => Z.lor (r * W) a mod rhs
  | a :: b :: ws' => rem_u64_loop ws' (Z.lor (Z.lor (r * W) a * W) b mod rhs) rhs
  end.
Definition rem_inner_u64 (a : list Z) (rhs : Z) : Z := rem_u64_loop (rev a) 0 rhs.

(** nat.rs:1962-1965. *)
Definition small_primes : list Z := [3; 5; 7; 11; 13; 17; 19; 23; 29; 31; 37; 41; 43; 47; 53].
Definition small_primes_product : Z := 16294579238595022365.

(** nat.rs:1976-1978: [iter_mut().take(n)] stops at the first error. *)
Fixpoint take_words (g : rng) (n : nat) {struct g} : res (list Z * rng) :=
  match n with
  | O => Ok ([], g)
  | S n' =>
      match g with
      | [] => Fuel
      | None :: g' => Ok ([], g')
      | Some x :: g' => do '(ws, rest) <- take_words g' n'; Ok (x :: ws, rest)
      end
  end.

(** nat.rs:1989-2003: set the two most significant bits; the [else] branch
    sets the last word's lowest bit and the highest bit of the one before it. *)
Definition set_top (b : Z) (v : list Z) : list Z :=
  if 2 <=? b then set_last v (Z.lor (last v 0) (3 * 2 ^ (b - 2)))
  else
    match rev v with
    | [] => []
    | [x] => [Z.lor x 1]
    | x :: y :: r => rev (Z.lor x 1 :: Z.lor y 0x80000000 :: r)
    end.

(** nat.rs:1980-2006: mask, top bits, odd.  [last().unwrap()] and
    [next().unwrap()] panic on an empty vector. *)
Definition shape_words (b : Z) (v : list Z) : res (list Z) :=
  match v with
  | [] => Panic
  | _ =>
      let v := if negb (b =? 32) then set_last v (Z.land (last v 0) (2 ^ b - 1)) else v in
      match set_top b v with
      | [] => Panic
      | x :: v' => Ok (Z.lor x 1 :: v')
      end
  end.

(** nat.rs:2013-2027: the first delta = 0, 2, 4, ... below 2^20 for which no
    small prime divides modulus + delta. *)
Fixpoint find_delta (cnt : nat) (delta modulus bits : Z) : option Z :=
  match cnt with
  | O => None
  | S c =>
      let m := modulus + delta in
      if existsb (fun p => (m mod p =? 0) && ((6 <? bits) || negb (m =? p))) small_primes
      then find_delta c (delta + 2) modulus bits
      else Some delta
  end.

(** nat.rs:2013-2030: the candidate after the delta search. *)
Definition candidate (bits : Z) (p : list Z) : list Z :=
  match find_delta (Z.to_nat (2 ^ 19)) 0 (rem_inner_u64 p small_primes_product) bits with
  | Some d => if 0 <? d then nat_add_u32 p d else p
  | None => p
  end.

(** nat.rs:1973-2034: the outer loop; every try uses up at least one outcome. *)
Fixpoint gen_prime_loop (fuel : nat) (checks : bool) (bits b : Z) (len rounds : nat) (g : rng) : res (list Z * rng) :=
  match fuel with
  | O => Fuel
  | S f =>
      do '(ws, g1) <- take_words g len;
      do p <- shape_words b ws;
      let p := candidate bits p in
      if bits_len p =? bits then
        do '(t, g2) <- probably_prime checks p rounds g1;
        if t then Ok (p, g2) else gen_prime_loop f checks bits b len rounds g2
      else gen_prime_loop f checks bits b len rounds g1
  end.

(** nat.rs:1957-2035 [generate_prime]; [None] is [Err]. *)
Definition generate_prime (checks : bool) (bits : Z) (rounds : nat) (g : rng) : res (option (list Z) * rng) :=
  if bits <? 2 then Ok (None, g)
  else
    let b := if bits mod 32 =? 0 then 32 else bits mod 32 in
    let len := Z.to_nat ((bits + 31) / 32) in
    do '(p, g') <- gen_prime_loop (S (length g)) checks bits b len rounds g;
    Ok (Some p, g').
