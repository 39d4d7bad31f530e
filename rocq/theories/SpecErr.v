(** What is wrong with a text that is not a number, stated on the text alone. *)
From Coq Require Import Ascii String ZArith List.
From Verif Require Import Words Spec NatConv NatConvFacts Errors.
Import ListNotations.
Open Scope Z_scope.
Open Scope list_scope.

Definition signs (pre : list Z) : Prop := Forall (fun c => c = 43 \/ c = 32) pre.
Definition is_digit (base c : Z) : Prop := digit_value base c <> None.

(** [fault t k m]: the text [t] (white space around it removed) is not a
    number for the reason [k], which the message [m] explains. *)
Inductive fault : list Z -> parse_kind -> list Z -> Prop :=
| fault_empty : fault [] BeginWithIllegalChar (str "empty string")
| fault_signs pre : signs pre -> pre <> [] -> fault pre BeginWithIllegalChar (str "all char is +")
(** The first character behind the signs is no digit. *)
| fault_start pre c s : signs pre -> c <> 43 -> c <> 32 -> ~ is_digit 10 c ->
    fault (pre ++ c :: s) BeginWithIllegalChar (str "begin with illegal char " ++ [c])
(** It is a 0, and more follows, but not the letter of a prefix. *)
| fault_zero pre c s : signs pre -> (forall base, ~ prefix_base c base) ->
    fault (pre ++ 48 :: c :: s) BeginWithIllegalChar (str "begin with illegal char 0" ++ [c])
(** A decimal number: [c] is the first character that is no digit. *)
| fault_dec pre d u c v : signs pre -> is_digit 10 d -> d <> 48 -> Forall (is_digit 10) u -> ~ is_digit 10 c ->
    fault (pre ++ d :: u ++ c :: v) IllegalCharEncounter (str "illegal char " ++ [c])
(** With a prefix: [c] is the last character that is no digit. *)
| fault_prefix pre p base u c v : signs pre -> prefix_base p base -> ~ is_digit base c -> Forall (is_digit base) v ->
    fault (pre ++ 48 :: p :: u ++ c :: v) IllegalCharEncounter (str "illegal char " ++ [c]).

(** The same for an integer: a '-' in front is skipped, and the white space
    behind it. *)
Inductive int_fault : list Z -> parse_kind -> list Z -> Prop :=
| int_fault_plain t k m : hd 0 t <> 45 -> fault t k m -> int_fault t k m
| int_fault_minus s t k m : trimmed s t -> fault t k m -> int_fault (45 :: s) k m.
