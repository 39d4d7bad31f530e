(** Specification vocabulary: which texts are Floats, and of which number. *)
From Coq Require Import ZArith List.
From Verif Require Import Spec NatConvFacts SpecRat.
Import ListNotations.
Open Scope Z_scope.

(** A sign and a prefix without digits ("0x", "-0b"): read as NaN (C14). *)
Definition bare_prefix (s : list Z) : Prop :=
  exists t base, numeral_text t base [] /\ (trimmed s t \/ exists u, trimmed s (45 :: u) /\ trimmed u t).
(** What the integer parser reads; [None] is NaN. *)
Definition reads (s : list Z) (o : option Z) : Prop :=
  match o with Some n => int_text s n | None => bare_prefix s end.

(** The number of bytes of a text in UTF-8. *)
Definition bytes_of (c : Z) : Z :=
  1 + (if 128 <=? c then 1 else 0) + (if 2048 <=? c then 1 else 0) + (if 65536 <=? c then 1 else 0).
Fixpoint text_bytes (s : list Z) : Z := match s with [] => 0 | c :: s => bytes_of c + text_bytes s end.

(** The text before the exponent letter and the exponent; a last letter is not
    taken for one. *)
Definition before_exp (lo hi : Z) (t u : list Z) (k : Z) : Prop :=
  exists c, (c = 101 \/ c = 69) /\
    ((u = t /\ k = 0 /\ (~ In 101 t /\ ~ In 69 t \/ exists v, t = v ++ [c] /\ ~ In c v)) \/
     (exists es, t = u ++ c :: es /\ ~ In c u /\ es <> [] /\ ((int_text es k /\ lo <= k <= hi) \/ (bare_prefix es /\ k = 0)))).
(** The text without its first point, and the number of bytes behind it. *)
Definition without_point (u nu : list Z) (f : Z) : Prop :=
  (~ In 46 u /\ nu = u /\ f = 0) \/ exists p q, u = p ++ 46 :: q /\ ~ In 46 p /\ nu = p ++ q /\ f = text_bytes q.

(** [t] stands for [o] divided by 10 ^ n. *)
Inductive float_text (lo hi : Z) (t : list Z) : option Z -> Z -> Prop :=
| ft_whole o : t <> [] -> ~ In 46 t -> ~ In 101 t -> ~ In 69 t -> reads t o -> float_text lo hi t o 0
| ft_fraction u k nu f o : In 46 t \/ In 101 t \/ In 69 t -> ~ (In 101 t /\ In 69 t) ->
    before_exp lo hi t u k -> without_point u nu f -> 0 < f - k -> reads nu o -> float_text lo hi t o (f - k).
