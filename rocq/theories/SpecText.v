(** The digit characters of the printed numerals, as alphabets. *)
From Coq Require Import Ascii String ZArith List.
From Verif Require Import Spec.
Import ListNotations.
Open Scope Z_scope.

Definition digit_in (alphabet : string) (d : Z) : Z :=
  nth (Z.to_nat d) (map (fun c => Z.of_nat (nat_of_ascii c)) (list_ascii_of_string alphabet)) 0.
Definition lower_digits : string := "0123456789abcdef".
Definition upper_digits : string := "0123456789ABCDEF".
(** [s] is the numeral of [n] in lower or upper case digits. *)
Definition lower_numeral := is_numeral (digit_in lower_digits).
Definition upper_numeral := is_numeral (digit_in upper_digits).
