(** Heap model of shared storage for [Rat].

    rat.rs:21-30: [Rat] derives [Clone]; its two BigInts share their vectors
    with the clone.  [numerator()] and [denominator()] (rat.rs:401-407) give a
    reference; a clone of it is a BigInt that shares the vector of the Rat.
    The operators build a new Rat, and the assigning ones store it with
    [*self = z]; only [clear] (rat.rs:409-411) writes in place. *)
From Coq Require Import ZArith List Bool.
From Verif Require Import Words NatModel BigInt Rat Alias AliasInt.
Import ListNotations.
Open Scope Z_scope.

Inductive rop := RAdd | RSub | RMul | RDiv.

(** What a user can do; Rats and BigInts are numbered separately in the order
    of their creation. *)
Inductive rcmd :=
| RNew (v : rat)                       (* let v = Rat::from(..); storage of its own *)
| RClone (x : nat)                     (* let v = x.clone(); *)
| RDeep (x : nat)                      (* let v = x.deep_clone(); *)
| RBin (o : rop) (x y : nat)           (* let v = x.clone() op y.clone(); *)
| RNeg (x : nat)                       (* let v = -x.clone(); *)
| RAssign (o : rop) (x y : nat)        (* x op= y.clone(); *)
| RNumer (x : nat)                     (* let n = x.numerator().clone(); a BigInt *)
| RDenom (x : nat)                     (* let n = x.denominator().clone(); a BigInt *)
| IAssign (o : bop) (n : nat) (w : bigint)   (* n op= w; with storage of its own *)
| ISign (n : nat) (neg : bool).        (* n.set_negative(); or n.set_natural(); *)

(** rat.rs:517-601 *)
Definition r_op (o : rop) : rat -> rat -> res rat :=
  match o with RAdd => r_add | RSub => r_sub | RMul => r_mul | RDiv => r_div end.
Definition r_inner (o : rop) : rat -> rat -> res rat :=
  match o with RAdd => r_add_inner | RSub => r_sub_inner | RMul => r_mul_inner | RDiv => r_div_inner end.
(** When the assigning form clears the numerator instead: [*=] looks at the
    left operand only (line 554). *)
Definition clears (o : rop) (x y : rat) : bool :=
  match o with RMul => r_is_nan x | _ => r_is_nan x || r_is_nan y end.

(* ------------------------------------------------------------------ *)
(** * Programs *)

(** A BigInt handle is a sign and a cell, a Rat handle two of them. *)
Definition ihead : Type := (bool * nat)%type.
Record rstate := RSt { rats : list (ihead * ihead); ints : list ihead; rheap : list (list Z) }.

Definition iread (s : rstate) (h : ihead) : res bigint :=
  match nth_error (rheap s) (snd h) with Some m => Ok (BI m (fst h)) | None => Panic end.
Definition rhead (s : rstate) (x : nat) : res (ihead * ihead) :=
  match nth_error (rats s) x with Some h => Ok h | None => Panic end.
Definition rread (s : rstate) (x : nat) : res rat :=
  do '(a, b) <- rhead s x; do p <- iread s a; do q <- iread s b; Ok (RT p q).
Definition int_head (s : rstate) (n : nat) : res ihead :=
  match nth_error (ints s) n with Some h => Ok h | None => Panic end.

Fixpoint upd {A} (l : list A) (i : nat) (v : A) : list A :=
  match l, i with
  | [], _ => []
  | _ :: t, O => v :: t
  | h :: t, S j => h :: upd t j v
  end.

(** Two new cells. *)
Definition new_pair (s : rstate) (v : rat) : ihead * ihead := ((bneg (rnum v), length (rheap s)), (bneg (rden v), S (length (rheap s)))).
Definition ralloc (s : rstate) (v : rat) : rstate :=
  RSt (rats s ++ [new_pair s v]) (ints s) (rheap s ++ [bnat (rnum v); bnat (rden v)]).
(** [*self = z] *)
Definition rpoint (s : rstate) (x : nat) (v : rat) : rstate :=
  RSt (upd (rats s) x (new_pair s v)) (ints s) (rheap s ++ [bnat (rnum v); bnat (rden v)]).
Definition r_deep (v : rat) : rat := RT (BI (trim (bnat (rnum v))) (bneg (rnum v))) (BI (trim (bnat (rden v))) (bneg (rden v))).

(** One command. *)
Definition rstep (s : rstate) (c : rcmd) : res rstate :=
  match c with
  | RNew v => Ok (ralloc s v)
  | RClone x => do h <- rhead s x; Ok (RSt (rats s ++ [h]) (ints s) (rheap s))
  | RDeep x => do v <- rread s x; Ok (ralloc s (r_deep v))
  | RBin o x y => do v <- rread s x; do w <- rread s y; do r <- r_op o v w; Ok (ralloc s r)
  | RNeg x => do v <- rread s x; Ok (ralloc s (r_neg (r_deep v)))
  | RAssign o x y =>
      do v <- rread s x; do w <- rread s y;
      if clears o v w then
        do '(a, _) <- rhead s x; Ok (RSt (rats s) (ints s) (upd (rheap s) (snd a) nan))
      else do r <- r_inner o v w; Ok (rpoint s x r)
  | RNumer x => do '(a, _) <- rhead s x; Ok (RSt (rats s) (ints s ++ [a]) (rheap s))
  | RDenom x => do '(_, b) <- rhead s x; Ok (RSt (rats s) (ints s ++ [b]) (rheap s))
  | IAssign o n w =>
      (* in place, see AliasInt.v *)
      do h <- int_head s n; do v <- iread s h; do r <- b_op o v w;
      Ok (RSt (rats s) (upd (ints s) n (bneg r, snd h)) (upd (rheap s) (snd h) (bnat r)))
  | ISign n neg =>
      do h <- int_head s n; do v <- iread s h;
      let r := if neg then b_set_negative v else b_set_natural v in
      Ok (RSt (rats s) (upd (ints s) n (bneg r, snd h)) (rheap s))
  end.

Fixpoint rrun (s : rstate) (cs : list rcmd) : res rstate :=
  match cs with
  | [] => Ok s
  | c :: cs' => do s' <- rstep s c; rrun s' cs'
  end.
Definition rempty : rstate := RSt [] [] [].

(** What a handle shows. *)
Definition rlook (s : rstate) (x : nat) : option rat := match rread s x with Ok v => Some v | _ => None end.
Definition ilook (s : rstate) (n : nat) : option bigint :=
  match nth_error (ints s) n with Some h => match iread s h with Ok v => Some v | _ => None end | None => None end.
