(** Specification vocabulary used by the Properties files.  Nothing here
    refers to the model of the code except [canon] and [nval] (the reading of
    a word list as an integer). *)
From Coq Require Import ZArith List Bool.
From Verif Require Import Words.
Import ListNotations.
Open Scope Z_scope.

(** [l] is the canonical word list of the integer [n]. *)
Definition represents (l : list Z) (n : Z) : Prop := canon l /\ nval l = n.

(** [l] is a word list (not necessarily canonical) of value [n]. *)
Definition has_value (l : list Z) (n : Z) : Prop := words_ok l /\ nval l = n.

(** A Nat as a user sees it: NaN or canonical. *)
Definition valid_nat (l : list Z) : Prop := l = [] \/ canon l.

(* ------------------------------------------------------------------ *)
(** * Positional numerals *)

(** Value of a digit list, most significant digit first (Horner's rule). *)
Definition be_value (base : Z) (ds : list Z) : Z :=
  fold_left (fun acc d => acc * base + d) ds 0.

(** Value of a digit list, least significant digit first. *)
Definition le_value (base : Z) (ds : list Z) : Z :=
  fold_right (fun d acc => d + base * acc) 0 ds.

Definition digits_ok (base : Z) (ds : list Z) : Prop := Forall (fun d => 0 <= d < base) ds.

(** [s] is the usual numeral of [n]: digits in range, at least one, no
    superfluous leading zero; [chr] is the character of a digit. *)
Definition is_numeral (chr : Z -> Z) (base : Z) (s : list Z) (n : Z) : Prop :=
  exists ds, s = map chr ds /\ digits_ok base ds /\ be_value base ds = n /\
    ds <> [] /\ (length ds = 1%nat \/ hd 0 ds <> 0).

(** The value of a character as a digit: 0-9, a-z, A-Z below the base. *)
Definition digit_value (base c : Z) : option Z :=
  let v := if (48 <=? c) && (c <=? 57) then c - 48
           else if (97 <=? c) && (c <=? 122) then c - 87
           else if (65 <=? c) && (c <=? 90) then c - 55
           else base in
  if v <? base then Some v else None.

(** The texts the parser documents: any number of '+' or ' ' in front, then
    decimal digits without superfluous leading zero, or a prefix 0x/0X, 0b/0B,
    0o followed by digits of that base. *)
Definition prefix_base (c base : Z) : Prop :=
  (base = 16 /\ (c = 120 \/ c = 88)) \/ (base = 2 /\ (c = 98 \/ c = 66)) \/ (base = 8 /\ c = 111).
Definition digit_text (base : Z) (s ds : list Z) : Prop :=
  Forall2 (fun c d => digit_value base c = Some d) s ds.
Inductive numeral_text : list Z -> Z -> list Z -> Prop :=
| nt_dec pre s ds :
    Forall (fun c => c = 43 \/ c = 32) pre -> digit_text 10 s ds -> ds <> [] ->
    (length ds = 1%nat \/ hd 0 ds <> 0) -> numeral_text (pre ++ s) 10 ds
| nt_prefix pre c base s ds :
    Forall (fun c => c = 43 \/ c = 32) pre -> prefix_base c base -> digit_text base s ds ->
    numeral_text (pre ++ 48 :: c :: s) base ds.
