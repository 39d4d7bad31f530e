(** How a prime of a given length is generated, in terms of the words drawn.
    [test n g] is the answer of the primality test for n on the outcomes g,
    with the outcomes it leaves. *)
From Coq Require Import ZArith Znumtheory List.
From Verif Require Import Words.
Import ListNotations.
Open Scope Z_scope.

(** The words as a number, cut to the length, with the two top bits and the
    lowest bit set. *)
Definition start (bits v : Z) : Z := Z.lor (Z.lor (v mod 2 ^ bits) (3 * 2 ^ (bits - 2))) 1.
(** Not a multiple of an odd prime up to 53, other than that prime itself. *)
Definition sieved (bits m : Z) : Prop := forall q, prime q -> 3 <= q <= 53 -> (q | m) -> bits <= 6 /\ m = q.
(** The first sieved number start, start + 2, ... below start + 2^20. *)
Definition candidate_of (bits v c : Z) : Prop :=
  (exists d, c = start bits v + d /\ 0 <= d < 2 ^ 20 /\ Z.Even d /\ sieved bits c /\
     forall d', 0 <= d' < d -> Z.Even d' -> ~ sieved bits (start bits v + d')) \/
  (c = start bits v /\ forall d', 0 <= d' < 2 ^ 20 -> Z.Even d' -> ~ sieved bits (start bits v + d')).

Inductive generates (test : Z -> list (option Z) -> option (bool * list (option Z))) (bits : Z) : list (option Z) -> Z -> list (option Z) -> Prop :=
| gen_hit ws g c rest : words_ok ws -> Z.of_nat (length ws) = (bits + 31) / 32 -> candidate_of bits (nval ws) c -> c < 2 ^ bits ->
    test c g = Some (true, rest) -> generates test bits (map Some ws ++ g) c rest
| gen_fail ws g c g' n rest : words_ok ws -> Z.of_nat (length ws) = (bits + 31) / 32 -> candidate_of bits (nval ws) c -> c < 2 ^ bits ->
    test c g = Some (false, g') -> generates test bits g' n rest -> generates test bits (map Some ws ++ g) n rest
| gen_long ws g c n rest : words_ok ws -> Z.of_nat (length ws) = (bits + 31) / 32 -> candidate_of bits (nval ws) c -> 2 ^ bits <= c ->
    generates test bits g n rest -> generates test bits (map Some ws ++ g) n rest
(** the generator fails after some of the words: they are dropped *)
| gen_short ws g n rest : words_ok ws -> 1 <= Z.of_nat (length ws) < (bits + 31) / 32 ->
    generates test bits g n rest -> generates test bits (map Some ws ++ None :: g) n rest.
