(** Model of the word-list arithmetic of [Nat].

    Primary back end: nat_amd64.rs (add, sub) and nat_avx2.rs (mul), the only
    configuration of the crate that compiles.  Definitions named [..._inner]
    follow the Rust functions of the same name; the [&mut self] receiver is
    the first argument and the mutated value is the result. *)
From Coq Require Import ZArith List Lia Bool.
From Verif Require Import Words.
Import ListNotations.
Open Scope Z_scope.

(** nat.rs:97-99 [is_nan]. *)
Definition is_nan (x : list Z) : bool := match x with [] => true | _ => false end.

(** nat.rs:715-717 [nan]; nat.rs:2030-2036 [Default] also builds the empty vector. *)
Definition nan : list Z := [].

(** nat_macro.rs:1-18, [From<u32>] (types of at most 32 bits): one word. *)
Definition from_u32 (x : Z) : list Z := [x].

(* ------------------------------------------------------------------ *)
(** * Comparison *)

(** nat.rs:427-434: loop over both vectors from the most significant word.
    [cmp_words] receives the words most significant first. *)
Fixpoint cmp_words (a b : list Z) : comparison :=
  match a, b with
  | x :: a', y :: b' =>
      if x <? y then Lt else if y <? x then Gt else cmp_words a' b'
  | _, _ => Eq
  end.

(** nat.rs:420-435 [partial_cmp_inner]. *)
Definition cmp_inner (a b : list Z) : comparison :=
  if (length a <? length b)%nat then Lt
  else if (length b <? length a)%nat then Gt
  else cmp_words (rev a) (rev b).

(** nat.rs:2198-2206 [PartialOrd::partial_cmp]. *)
Definition partial_cmp (a b : list Z) : option comparison :=
  if is_nan a || is_nan b then None else Some (cmp_inner a b).

(** [Vec<u32> == Vec<u32>]. *)
Fixpoint list_eqb (a b : list Z) : bool :=
  match a, b with
  | [], [] => true
  | x :: a', y :: b' => (x =? y) && list_eqb a' b'
  | _, _ => false
  end.

(** nat.rs:2186-2194 [PartialEq::eq]. *)
Definition nat_eq (a b : list Z) : bool :=
  if is_nan a then false else list_eqb a b.

(** nat_macro.rs:58-74 [PartialEq<u32>]. *)
Definition nat_eq_u32 (a : list Z) (w : Z) : bool := nat_eq a (from_u32 w).

(** [self >= rhs] through [partial_cmp]. *)
Definition nat_ge (a b : list Z) : bool :=
  match partial_cmp a b with Some Gt | Some Eq => true | _ => false end.

(** [self < rhs] through [partial_cmp]. *)
Definition nat_lt (a b : list Z) : bool :=
  match partial_cmp a b with Some Lt => true | _ => false end.

(* ------------------------------------------------------------------ *)
(** * Addition (nat_amd64.rs:11-39) *)

(** nat_amd64.rs:22-32: the longer operand's remaining words get the carry
    (an add-with-carry with one operand 0); a final carry is pushed. *)
Fixpoint carry_loop (c : Z) (l : list Z) : list Z :=
  match l with
  | [] => if c >? 0 then [c] else []
  | x :: l' => let '(c', s) := adc c x 0 in s :: carry_loop c' l'
  end.

(** nat_amd64.rs:11-33 [add_inner_by_adcx]: the common part is added word by
    word, then [carry_loop] runs over what is left of either operand. *)
Fixpoint add_loop (c : Z) (a b : list Z) : list Z :=
  match a, b with
  | x :: a', y :: b' => let '(c', s) := adc c x y in s :: add_loop c' a' b'
  | [], _ => carry_loop c b
  | _, [] => carry_loop c a
  end.

(** nat_amd64.rs:35-39 [add_inner]. *)
Definition add_inner (a b : list Z) : list Z := add_loop 0 a b.

(** nat_amd64.rs:79-90 [add_inner_basic]: [rhs] is added to the first word
    and is 0 afterwards. *)
Fixpoint add_basic_loop (c : Z) (a : list Z) (w : Z) : list Z :=
  match a with
  | [] => if c >? 0 then [c] else []
  | x :: a' => let '(c', s) := adc c x w in s :: add_basic_loop c' a' 0
  end.
Definition add_inner_basic (a : list Z) (w : Z) : list Z := add_basic_loop 0 a w.

(* ------------------------------------------------------------------ *)
(** * Subtraction (nat_amd64.rs:41-77) *)

(** nat_amd64.rs:47-53: the zipped part; returns the words produced and the
    borrow.  [ge] selects the operand order. *)
Fixpoint sub_zip (ge : bool) (c : Z) (a b : list Z) : list Z * Z :=
  match a, b with
  | x :: a', y :: b' =>
      let '(c', s) := if ge then sbb c x y else sbb c y x in
      let '(r, c'') := sub_zip ge c' a' b' in
      (s :: r, c'')
  | _, _ => ([], c)
  end.

(** nat_amd64.rs:55-62: borrow propagation into the rest of [self], leaving
    the loop as soon as the borrow is 0. *)
Fixpoint sub_tail (c : Z) (a : list Z) : list Z :=
  match a with
  | [] => []
  | x :: a' =>
      let '(c', s) := sbb c x 0 in
      if c' =? 0 then s :: a' else s :: sub_tail c' a'
  end.

(** [Vec::resize(n, 0)] when it does not shrink below, general form. *)
Definition resize (l : list Z) (n : nat) (v : Z) : list Z :=
  firstn n l ++ repeat v (n - length l).

(** nat_amd64.rs:41-73 [sub_inner_with_sign]: (|a - b|, a >= b). *)
Definition sub_inner_with_sign (a b : list Z) : list Z * bool :=
  let ge := nat_ge a b in
  let a1 := if ge then a else resize a (length b) 0 in
  let '(lo, c) := sub_zip ge 0 a1 b in
  let hi := skipn (length b) a1 in
  let hi' := if ge && (c >? 0) then sub_tail c hi else hi in
  (trim (lo ++ hi'), ge).

(** nat_amd64.rs:75-77 [sub_inner]. *)
Definition sub_inner (a b : list Z) : list Z := fst (sub_inner_with_sign a b).

(** nat_amd64.rs:109-115 [sub_inner_basic_by_sbb]; the last borrow is dropped
    and the result is not trimmed. *)
Fixpoint sub_basic_loop (c : Z) (a : list Z) (w : Z) : list Z :=
  match a with
  | [] => []
  | x :: a' => let '(c', s) := sbb c x w in s :: sub_basic_loop c' a' 0
  end.

(** nat_amd64.rs:92-107 [sub_inner_basic]. *)
Definition sub_inner_basic (a : list Z) (w : Z) : list Z :=
  match a with
  | [] => []
  | [x] => [if x <? w then w - x else x - w]
  | _ => sub_basic_loop 0 a w
  end.

(** nat.rs:411-418 [sub_assign_with_sign]. *)
Definition sub_assign_with_sign (a b : list Z) : list Z * bool :=
  if is_nan a || is_nan b then (nan, false) else sub_inner_with_sign a b.

(** nat.rs:399-407 [sub_with_sign]: the same on a [deep_clone], which is
    [Nat::from] of the words and drops leading zero words (nat.rs:93-95,
    2038-2060). *)
Definition sub_with_sign (a b : list Z) : list Z * bool := sub_assign_with_sign (trim a) b.

(* ------------------------------------------------------------------ *)
(** * Multiplication *)

(** nat.rs:238-244 [min_max]. *)
Definition min_max (a b : list Z) : list Z * list Z :=
  if nat_lt a b then (a, b) else (b, a).

(** nat_avx2.rs:25-42: [max] padded with zero words to a multiple of four
    (the packed lanes of the last register). *)
Definition pad4 (l : list Z) : list Z :=
  l ++ repeat 0 ((4 - length l mod 4) mod 4).

(** nat_avx2.rs:46-58: row [i] is [v_len] u64 values, zero except for the
    lane products l * max[j] stored at index i + j.  [_mm256_mul_epu32]
    multiplies the low 32 bits of each 64-bit lane exactly. *)
Definition mul_row (vlen i : nat) (l : Z) (mx : list Z) : list Z :=
  let r := repeat 0 i ++ map (fun m => l * m) mx in
  r ++ repeat 0 (vlen - length r).

Fixpoint mul_rows (vlen i : nat) (mn mx : list Z) : list (list Z) :=
  match mn with
  | [] => []
  | l :: mn' => mul_row vlen i l mx :: mul_rows vlen (S i) mn' mx
  end.

(** nat_avx2.rs:66-71, inner loop of one column: [out] is a u64 accumulator,
    [c] counts the carries out of it ([_addcarryx_u64] with carry-in 0). *)
Fixpoint col_sum (c out : Z) (ys : list Z) : Z * Z :=
  match ys with
  | [] => (c, out)
  | y :: ys' =>
      col_sum (c + (out + y) / 18446744073709551616)
              ((out + y) mod 18446744073709551616) ys'
  end.

(** The shift [c << 32] of nat_avx2.rs:72, exact and as a u64 operation. *)
Definition shl_exact (c : Z) : Z := c * W.
Definition shl_u64 (c : Z) : Z := (c * W) mod 18446744073709551616.

(** nat_avx2.rs:65-76: columns 0 .. v_len-1.  [pre] is the running carry.
    [shc] is the u64 shift [c << 32].  *)
Fixpoint mul_cols (shc : Z -> Z) (n i : nat) (pre : Z) (rows : list (list Z)) : list Z :=
  match n with
  | O => if pre >? 0 then [pre mod W] else []
  | S n' =>
      let '(c, out) := col_sum 0 pre (map (fun y => nth i y 0) rows) in
      (out mod W) :: mul_cols shc n' (S i) (Z.lor (out / W) (shc c)) rows
  end.

(** nat_avx2.rs:12-77 [mul_manuual_by_avx2]. *)
Definition mul_avx2 (shc : Z -> Z) (a b : list Z) : list Z :=
  let '(mn, mx0) := min_max (trim a) b in
  let mx := pad4 mx0 in
  let vlen := (length mn + length mx - 1)%nat in
  trim (mul_cols shc vlen 0 0 (mul_rows vlen 0 mn mx)).

(** nat_avx2.rs:78-90 [mul_inner].  Copying [max] onto itself when both
    handles share storage is the identity, so pointer equality is not needed. *)
Definition mul_with (shc : Z -> Z) (a b : list Z) : list Z :=
  if nat_eq_u32 a 0 || nat_eq_u32 b 0 then [0]
  else if nat_eq_u32 a 1 then b
  else if nat_eq_u32 b 1 then a
  else mul_avx2 shc a b.

(** The literal machine operation: the shift loses bits above 2^64. *)
Definition mul_inner_u64 := mul_with shl_u64.

(** The version used by everything built on top: an exact shift.  [c] is at
    most the number of words of the shorter operand, and the table [r] of that
    many vectors of at least that many u64 would have to exceed the address
    space before [c << 32] overflows, so the two agree on every input that can
    be allocated (theorem [mul_inner_u64_eq]: whenever the shorter operand has
    fewer than 2^32 words). *)
Definition mul_inner := mul_with shl_exact.

(** nat_avx2.rs:44 and 61-63: [v_len] comes from the two factors, the left one
    without its leading zero words, and [v.reserve(v_len.overflowing_sub(
    self.num()).0)] is called while the receiver still has all its words.  With
    more than [v_len] words the argument wraps and [reserve] panics ("capacity
    overflow": length and argument together are at least 2^64).  [a * b] works
    on a [deep_clone] and cannot get there; [a *= b] can. *)
Definition mul_room (a b : list Z) : bool :=
  let '(mn, mx) := min_max (trim a) b in
  (length a <=? length mn + length (pad4 mx) - 1)%nat.
Definition mul_assign_inner (a b : list Z) : res (list Z) :=
  if nat_eq_u32 a 0 || nat_eq_u32 b 0 || nat_eq_u32 a 1 || nat_eq_u32 b 1 || mul_room a b
  then Ok (mul_inner a b) else Panic.

(** nat.rs:620-638 [mul_inner_basic]: always pushes a carry word. *)
Fixpoint mul_basic_loop (pre : Z) (a : list Z) (w : Z) : list Z :=
  match a with
  | [] => if pre >? W - 1 then [pre mod W; pre / W] else [pre]
  | x :: a' =>
      let p := x * w in
      let v := p mod W + pre in
      (v mod W) :: mul_basic_loop (v / W + p / W) a' w
  end.
Definition mul_inner_basic (a : list Z) (w : Z) : list Z := mul_basic_loop 0 a w.

(* ------------------------------------------------------------------ *)
(** * Shifts *)

(** nat.rs:442-450, bit part of [shl_inner]; [pre] are the bits carried in. *)
Fixpoint shl_bits (nom pre : Z) (a : list Z) : list Z :=
  match a with
  | [] => if pre >? 0 then [pre] else []
  | x :: a' =>
      Z.lor ((x * 2 ^ nom) mod W) pre :: shl_bits nom (x / 2 ^ (32 - nom)) a'
  end.

(** nat.rs:437-456 [shl_inner]: resize + rotate_right prepends zero words. *)
Definition shl_inner (a : list Z) (k : Z) : list Z :=
  let num := Z.to_nat (k / 32) in
  let nom := k mod 32 in
  let a1 := if nom >? 0 then shl_bits nom 0 a else a in
  repeat 0 num ++ a1.

(** nat.rs:478-482, loop of [shr_inner]: pairs (v[i], b) with b running over
    the words above index [num]; writes the low result words in place and
    returns the updated list and the last [pre]. *)
Fixpoint shr_loop (nom pre : Z) (v bs : list Z) : list Z * Z :=
  match v, bs with
  | a :: v', b :: bs' =>
      let r := rotr b nom in
      let mask_h := (2 ^ nom - 1) * 2 ^ (32 - nom) in
      let mask_l := 2 ^ (32 - nom) - 1 in
      let a' := Z.lor (Z.land r mask_h) pre in
      let '(t, p) := shr_loop nom (Z.land r mask_l) v' bs' in
      (a' :: t, p)
  | _, _ => (v, pre)
  end.

(** [v.last_mut() = x]. *)
Definition set_last (l : list Z) (x : Z) : list Z :=
  match l with [] => [] | _ => removelast l ++ [x] end.

(** nat.rs:458-500 [shr_inner].  [lhs] is a shallow clone sharing storage with
    [v]; the loop reads index num+1+i before writing index i only, so reading
    the original list is the same. *)
Definition shr_inner (v : list Z) (k : Z) : list Z :=
  let num := Z.to_nat (k / 32) in
  let nom := k mod 32 in
  if (length v <=? num)%nat then [0]
  else
    let '(v1, pre) :=
      if nom >? 0 then
        match skipn num v with
        | x :: bs => shr_loop nom (x / 2 ^ nom) v bs
        | [] => (v, 0)
        end
      else (v, 0) in
    let v2 := firstn (length v - num) v1 in
    if pre >? 0 then set_last v2 pre
    else if (nom >? 0) && (num =? 0)%nat then
      match removelast v2 with [] => [0] | l => l end
    else v2.

(* ------------------------------------------------------------------ *)
(** * Bit length *)

(** nat.rs:210-220 [bits_len]. *)
Definition bits_len (a : list Z) : Z :=
  match a with
  | [] => 0
  | _ =>
      let x := last a 0 in
      if x =? 0 then
        if (length a =? 1)%nat then 1 else (Z.of_nat (length a) - 1) * 32
      else (32 - leading_zeros x) + (Z.of_nat (length a) - 1) * 32
  end.

(* ------------------------------------------------------------------ *)
(** * Division *)

(** nat.rs:503-509 [u32_shl]: lhs << rhs as words ([lhs << rem] in u32). *)
Definition u32_shl (lhs : Z) (rhs : Z) : list Z :=
  repeat 0 (Z.to_nat (rhs / 32)) ++ [(lhs * 2 ^ (rhs mod 32)) mod W].

(** nat.rs:541-544, inner loop of [div_inner]; [shift -= 1] below 0 panics. *)
Fixpoint div_adjust (fuel : nat) (den sc : list Z) (shift : Z)
  : res (list Z * Z) :=
  match cmp_inner den sc with
  | Gt =>
      match fuel with
      | O => Fuel
      | S f =>
          if shift <=? 0 then Panic
          else div_adjust f (shr_inner den 1) sc (shift - 1)
      end
  | _ => Ok (den, shift)
  end.

(** nat.rs:534-554, outer loop of [div_inner].  [sc.bits_len() - divisor_len]
    is a usize subtraction: negative would panic. *)
Fixpoint div_loop (fuel : nat) (q sc rhs : list Z) (dlen : Z) : res (list Z) :=
  match cmp_inner sc rhs with
  | Lt => Ok q
  | _ =>
      match fuel with
      | O => Fuel
      | S f =>
          let shift := bits_len sc - dlen in
          if shift <? 0 then Panic
          else
            do '(den, sh) <- div_adjust (S (Z.to_nat shift)) (shl_inner rhs shift) sc shift;
            div_loop f (add_inner q (u32_shl 1 sh)) (sub_inner sc den) rhs dlen
      end
  end.

(** nat.rs:511-555 [div_inner] without pointer aliasing (the by-value operator
    always deep-clones the receiver; aliasing is treated in Alias.v).  [sc] is
    a [deep_clone] and has no leading zero words.  The fuel is enough for every
    dividend if the divisor is canonical (C106_div). *)
Definition div_inner (a b : list Z) : res (list Z) :=
  let sc := trim a in
  if nat_eq_u32 b 0 then Panic
  else
    match cmp_inner sc b with
    | Lt => Ok [0]
    | _ =>
        let '(al, bl) := (bits_len sc, bits_len b) in
        if al =? bl then Ok [1]
        else div_loop (S (32 * length sc)) [0] sc b bl
    end.

(** nat.rs:566-579, loop of [rem_inner]. *)
Fixpoint rem_loop (fuel : nat) (a rhs : list Z) (dlen : Z) : res (list Z) :=
  match cmp_inner a rhs with
  | Lt => Ok a
  | _ =>
      match fuel with
      | O => Fuel
      | S f =>
          let shift := bits_len a - dlen in
          if shift <? 0 then Panic
          else
            let den := shl_inner rhs shift in
            let den' := match cmp_inner a den with Lt => shr_inner den 1 | _ => den end in
            rem_loop f (sub_inner a den') rhs dlen
      end
  end.

(** nat.rs:557-581 [rem_inner]. *)
Definition rem_inner (a b : list Z) : res (list Z) :=
  if nat_eq_u32 b 0 then Panic
  else
    match cmp_inner a b with
    | Lt => Ok a
    | _ =>
        do r <- rem_loop (S (32 * length a)) a b (bits_len b);
        Ok (trim r)
    end.

(** nat.rs:651-659 and 682-687: long division by one word from the top.
    Input most significant word first; output quotient words most significant
    first and the remainder. *)
Fixpoint divw_loop (pre : Z) (a : list Z) (w : Z) : list Z * Z :=
  match a with
  | [] => ([], pre)
  | x :: a' =>
      let v := pre * W + x in
      let '(q, r) := divw_loop (v mod w) a' w in
      ((v / w) mod W :: q, r)
  end.

(** nat.rs:640-669 [div_inner_basic]; [i] always equals the length. *)
Definition div_inner_basic (a : list Z) (w : Z) : res (list Z) :=
  if w =? 0 then Panic
  else match a with
       | [] => Ok []
       | [x] => Ok [x / w]
       | _ => Ok (trim (rev (fst (divw_loop 0 (rev a) w))))
       end.

(** nat.rs:671-691 [rem_inner_basic]. *)
Definition rem_inner_basic (a : list Z) (w : Z) : res (list Z) :=
  if w =? 0 then Panic
  else match a with
       | [] => Ok []
       | [x] => Ok [x mod w]
       | _ => Ok [(snd (divw_loop 0 (rev a) w)) mod W]
       end.

(* ------------------------------------------------------------------ *)
(** * Bit operators *)

(** [iter_mut().zip(..).for_each]: combine the common prefix, keep the rest of [a]. *)
Fixpoint zip_with (f : Z -> Z -> Z) (a b : list Z) : list Z :=
  match a, b with
  | x :: a', y :: b' => f x y :: zip_with f a' b'
  | _, _ => a
  end.

(** nat.rs:583-589 [bitand_inner]. *)
Definition bitand_inner (a b : list Z) : list Z :=
  let r := zip_with Z.land a b in
  trim (firstn (Nat.min (length r) (length b)) r).

(** nat.rs:591-603 [bitor_inner]. *)
Definition bitor_inner (a b : list Z) : list Z :=
  zip_with Z.lor a b ++ skipn (length a) b.

(** nat.rs:605-618 [bitxor_inner]. *)
Definition bitxor_inner (a b : list Z) : list Z :=
  trim (zip_with Z.lxor a b ++ skipn (length a) b).

(** nat.rs:247-259 [and_not] / [and_not_assign]; the [deep_clone] of the first
    makes no difference (theorem [C106_by_value_same]). *)
Definition and_not (a b : list Z) : list Z :=
  trim (zip_with (fun x y => Z.land x (wnot y)) a b).

(** nat.rs:693-713 [not_inner]. *)
Definition not_inner (a : list Z) : list Z :=
  let bitlen := bits_len a mod 32 in
  let v := map wnot a in
  trim (if bitlen >? 0
        then set_last v (Z.land (last v 0) (2 ^ bitlen - 1))
        else v).

(** nat.rs:726-734 [is_set_bit_] ([unreachable!] when out of range). *)
Definition is_set_bit_ (a : list Z) (i : Z) : res bool :=
  match nth_error a (Z.to_nat (i / 32)) with
  | Some x => Ok (negb (Z.land x (2 ^ (i mod 32)) =? 0))
  | None => Panic
  end.

(** nat.rs:738-741 [is_set_bit]. *)
Definition is_set_bit (a : list Z) (i : Z) : res (option bool) :=
  if bits_len a <=? i then Ok None
  else do b <- is_set_bit_ a i; Ok (Some b).

(* ------------------------------------------------------------------ *)
(** * Public operators (nat_macro.rs:91-123 and nat.rs:2211-2237)

    [a op= b] is NaN if an operand is NaN, otherwise the inner function.
    [a op b] is the same on [a.deep_clone()] (nat_macro.rs:99), which drops
    leading zero words of [a], not of [b]: see [by_value] below.  For numbers
    without leading zero words the two agree, and [nat_add] ... stand for
    both, except that [a *= b] of other numbers is [nat_mul_assign]; models of
    code that applies [op] to other numbers write [trim]. *)
Definition op2 (f : list Z -> list Z -> list Z) (a b : list Z) : list Z :=
  if is_nan a || is_nan b then nan else f a b.
Definition op2r (f : list Z -> list Z -> res (list Z)) (a b : list Z) : res (list Z) :=
  if is_nan a || is_nan b then Ok nan else f a b.
Definition op1 (f : list Z -> Z -> list Z) (a : list Z) (w : Z) : list Z :=
  if is_nan a then nan else f a w.
Definition op1r (f : list Z -> Z -> res (list Z)) (a : list Z) (w : Z) : res (list Z) :=
  if is_nan a then Ok nan else f a w.

Definition nat_add := op2 add_inner.
Definition nat_sub := op2 sub_inner.
Definition nat_mul := op2 mul_inner.
Definition nat_mul_assign := op2r mul_assign_inner.
Definition nat_div := op2r div_inner.
Definition nat_rem := op2r rem_inner.
Definition nat_bitand := op2 bitand_inner.
Definition nat_bitor := op2 bitor_inner.
Definition nat_bitxor := op2 bitxor_inner.
Definition nat_shl := op1 shl_inner.
Definition nat_shr := op1 shr_inner.
Definition nat_add_u32 := op1 add_inner_basic.
Definition nat_sub_u32 := op1 sub_inner_basic.
Definition nat_mul_u32 := op1 mul_inner_basic.
Definition nat_div_u32 := op1r div_inner_basic.
Definition nat_rem_u32 := op1r rem_inner_basic.
(** nat_macro.rs:91-103: [a op b] from [a op= b]. *)
Definition by_value {B C : Type} (f : list Z -> B -> C) (a : list Z) (b : B) : C := f (trim a) b.
(** nat.rs:2228-2238 [Not]. *)
Definition nat_not (a : list Z) : list Z := if is_nan a then nan else not_inner a.

(* ------------------------------------------------------------------ *)
(** * Trailing zeros *)

(** Rust [u32::trailing_zeros] of a non-zero word: the number of times 2
    divides it. *)
Fixpoint ctz_pos (p : positive) : Z :=
  match p with xO p' => 1 + ctz_pos p' | _ => 0 end.
Definition ctz (x : Z) : Z :=
  match x with Zpos p => ctz_pos p | _ => 32 end.

(** nat.rs:860-871 [trailling_zeros]. *)
Fixpoint trailling_zeros (a : list Z) : Z :=
  match a with
  | [] => 0
  | x :: a' => if x =? 0 then 32 + trailling_zeros a' else ctz x
  end.
