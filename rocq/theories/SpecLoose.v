(** What the operations do with a number stored in more words than it needs
    (C106).  The library makes such numbers itself: [x * w], [x - w] and
    [0 << 32] keep leading zero words (C06).  [a op= b] works on the words of
    [a] as they are, [a op b] drops the leading zero words of [a] first; both
    take the words of [b] as they are. *)
From Coq Require Import ZArith List Bool.
From Verif Require Import Words.
Open Scope Z_scope.

(** [a] keeps the number [n] in [l] words, leading zero words allowed. *)
Definition stored (a : list Z) (l n : Z) : Prop := words_ok a /\ Z.of_nat (length a) = l /\ 0 < l /\ nval a = n.

(** More words count as larger, whatever they hold. *)
Definition stored_compare (l m k n : Z) : comparison := if l <? k then Lt else if k <? l then Gt else m ?= n.
(** The difference wraps round at the longer length. *)
Definition stored_difference (l m k n : Z) : Z :=
  match stored_compare l m k n with Lt => (n - m) mod 2 ^ (32 * k) | _ => (m - n) mod 2 ^ (32 * l) end.

Definition bit_length (n : Z) : Z := Z.log2 n + 1.
(** What [%= n] makes of the number m in l words: if the top word is zero, the
    first multiple of n taken away is n * 2^s, and when that is too much the
    difference wraps round, which adds 2^(32 l). *)
Definition dividend (l m n : Z) : Z :=
  let s := 32 * (l - 1) - bit_length n in
  if (m <? 2 ^ (32 * (l - 1))) && (0 <=? s) && (m <? n * 2 ^ s) then m + 2 ^ (32 * l) else m.
(** What is left when a number m is divided by n kept in k words with a zero
    top word: the loop stops at the first value below 2^(32(k-1)). *)
Definition padded_rem (k m n : Z) : Z :=
  let d := 2 ^ (32 * (k - 1)) in
  if m <? d then m
  else if 2 * n <=? d then d - 2 * n + (m - d) mod (2 * n)
  else if m mod (2 * n) <? d then m mod (2 * n) else m mod (2 * n) - n.
(** What the first round of [%=] leaves of a number m in l > k words that has a
    zero top word itself. *)
Definition first_round (l m k n : Z) : Z :=
  let s := 32 * (l - k) in
  if n * 2 ^ s <=? m then m - n * 2 ^ s else (m - n * 2 ^ (s - 1)) mod 2 ^ (32 * l).
