(** What the right shift of the code computes for a number n kept in [l]
    words, for every shift count (C08, C35). *)
From Coq Require Import ZArith Bool.
Open Scope Z_scope.

Definition words (n : Z) : Z := Z.log2 n / 32 + 1.
Definition word_at (n i : Z) : Z := (n / 2 ^ (32 * i)) mod 2 ^ 32.
Definition shift_result (l n k : Z) : Z :=
  let j := k / 32 in
  let s := k mod 32 in
  if l <=? j then 0
  else if s =? 0 then n mod 2 ^ (32 * (l - j))
  else if (j =? 0) || (2 ^ s <=? word_at n (l - 1)) then n / 2 ^ k
  else n / 2 ^ k + 2 ^ (32 * (l - j - 1)) * word_at n (l - j - 1).
