(** Heap model of shared storage for [BigInt].

    bigint.rs:73-77: [struct BigInt { nat: Nat, sign: BISign }] with a derived
    [Clone]: a clone copies the sign and shares the vector of the magnitude.
    So a handle is a cell of the heap of Alias.v together with a sign of its
    own.  As there, an inner routine whose operands share a cell gets the
    sequential meaning of its steps. *)
From Coq Require Import ZArith List Bool.
From Verif Require Import Words NatModel BigInt Alias.
Import ListNotations.
Open Scope Z_scope.

Inductive bop := IAdd | ISub | IMul | IDiv | IRem | IAnd | IOr | IXor | IAndNot.

(** What a user can do with handles; variables are numbered in the order of
    their creation. *)
Inductive bcmd :=
| BNew (l : list Z) (neg : bool)    (* let v = BigInt::from(..); the sign of 0 and NaN is Natural *)
| BClone (x : nat)                  (* let v = x.clone(); *)
| BDeep (x : nat)                   (* let v = x.deep_clone(); *)
| BBin (o : bop) (x y : nat)        (* let v = x.clone() op y.clone(); *)
| BNeg (x : nat)                    (* let v = -x.clone(); *)
| BAbs (x : nat)                    (* let v = x.abs(); *)
| BSign (x : nat) (neg : bool)      (* x.set_negative(); or x.set_natural(); *)
| BAssign (o : bop) (x y : nat).    (* x op= y.clone(); *)

(** bigint.rs:456-463 [mul_inner], with the panic of [self.nat *= rhs.nat]. *)
Definition b_mul_assign (x y : bigint) : res bigint :=
  do n <- nat_mul_assign (bnat x) (bnat y); Ok (b_signed n (negb (eqb (bneg x) (bneg y)))).
(** bigint_macro.rs:58-84: the inner routine of an operator, operands in
    different cells. *)
Definition b_op (o : bop) (x y : bigint) : res bigint :=
  match o with
  | IAdd => Ok (b_add x y)
  | ISub => Ok (b_sub x y)
  | IMul => b_mul_assign x y
  | IDiv => b_div x y
  | IRem => b_rem x y
  | IAnd => Ok (b_and x y)
  | IOr => Ok (b_or x y)
  | IXor => Ok (b_xor x y)
  | IAndNot => Ok (b_and_not x y)
  end.

(** nat_macro.rs:105-113 with both sides one cell. *)
Definition nat_alias (fuel : nat) (o : nop) (m : list Z) : res (list Z) :=
  if is_nan m then Ok nan else alias2 fuel o m.
(** nat.rs:253-259 with both sides one cell. *)
Definition and_not_alias (m : list Z) : list Z := trim (map (fun x => Z.land x (wnot x)) m).

(** bigint.rs:375-602 when the magnitudes of [self] and [rhs] are the same
    cell, holding [m]; [sx] and [sy] are the signs of the two handles.  In the
    bit operators [self.nat -= 1u32] changes [rhs.nat] before it is read, and
    [self.nat.clear()] empties it. *)
Definition b_alias (fuel : nat) (o : bop) (m : list Z) (sx sy : bool) : res bigint :=
  match o with
  | IAdd =>
      if eqb sx sy then do n <- nat_alias fuel OAdd m; Ok (b_signed n sx)
      else do n <- nat_alias fuel OSub m; Ok (b_signed n (if nat_lt m m then negb sx else sx))
  | ISub =>
      if negb (eqb sx sy) then do n <- nat_alias fuel OAdd m; Ok (b_signed n sx)
      else do n <- nat_alias fuel OSub m; Ok (b_signed n (if nat_lt m m then negb sx else sx))
  | IMul => do n <- nat_alias fuel OMul m; Ok (b_signed n (negb (eqb sx sy)))
  | IDiv =>
      if nat_eq_u32 m 0 then Panic
      else
        let s := if eqb sx sy then false
                 else match partial_cmp m (from_u32 0) with
                      | None => false | Some Eq => false | _ => true end in
        do q <- nat_alias fuel ODiv m; Ok (BI q s)
  | IRem =>
      if nat_eq_u32 m 0 then Panic
      else do r <- nat_alias fuel ORem m; Ok (BI r sx)
  | IAnd =>
      if eqb sx sy then
        if sx then
          let m1 := nat_sub_u32 m 1 in
          let n := nat_add_u32 (nat_bitor m1 (nat_sub_u32 (trim m1) 1)) 1 in
          Ok (BI n (negb (is_nan n)))
        else do n <- nat_alias fuel OAnd m; Ok (BI n false)
      else if sx then Ok (BI (and_not [] (nat_sub_u32 (trim m) 1)) false)
      else Ok (BI (and_not m (nat_sub_u32 (trim m) 1)) false)
  | IOr =>
      if eqb sx sy then
        if sx then
          let m1 := nat_sub_u32 m 1 in
          let n := nat_add_u32 (nat_bitand m1 (nat_sub_u32 (trim m1) 1)) 1 in
          Ok (BI n (negb (is_nan n)))
        else do n <- nat_alias fuel OOr m; Ok (BI n false)
      else
        let n := nat_add_u32 (and_not (if sx then [] else m) (nat_sub_u32 (trim m) 1)) 1 in
        Ok (BI n (negb (is_nan n)))
  | IXor =>
      if eqb sx sy then
        if sx then
          let m1 := nat_sub_u32 m 1 in
          Ok (BI (nat_bitxor m1 (nat_sub_u32 (trim m1) 1)) false)
        else do n <- nat_alias fuel OXor m; Ok (BI n false)
      else
        let n := nat_add_u32 (nat_bitxor (if sx then [] else m) (nat_sub_u32 (trim m) 1)) 1 in
        Ok (BI n (negb (is_nan n)))
  | IAndNot =>
      if eqb sx sy then
        if sx then
          let m1 := nat_sub_u32 m 1 in Ok (BI (and_not m1 (nat_sub_u32 (trim m1) 1)) false)
        else Ok (BI (and_not_alias m) sx)
      else if sx then
        do n1 <- nat_alias fuel OOr (nat_sub_u32 m 1);
        let n := nat_add_u32 n1 1 in Ok (BI n (negb (is_nan n)))
      else Ok (BI (nat_bitand m (nat_sub_u32 (trim m) 1)) sx)
  end.

(* ------------------------------------------------------------------ *)
(** * Programs *)

Record bstate := BSt { mem : state; signs : list bool }.

Definition sign_of (s : bstate) (x : nat) : res bool :=
  match nth_error (signs s) x with Some b => Ok b | None => Panic end.
Fixpoint set_sign (l : list bool) (i : nat) (v : bool) : list bool :=
  match l, i with
  | [], _ => []
  | _ :: t, O => v :: t
  | h :: t, S j => h :: set_sign t j v
  end.
(** A new variable with storage of its own. *)
Definition balloc (s : bstate) (v : bigint) : bstate := BSt (alloc (mem s) (bnat v)) (signs s ++ [bneg v]).
(** Writing through a handle: its cell and its sign. *)
Definition bset (s : bstate) (x c : nat) (v : bigint) : bstate :=
  BSt (St (env (mem s)) (set_nth (heap (mem s)) c (bnat v))) (set_sign (signs s) x (bneg v)).

(** One command. *)
Definition bstep (fuel : nat) (s : bstate) (c : bcmd) : res bstate :=
  match c with
  | BNew l neg => Ok (balloc s (b_signed (trim l) neg))
  | BClone x =>
      do c <- cell_of (mem s) x; do sx <- sign_of s x;
      Ok (BSt (St (env (mem s) ++ [c]) (heap (mem s))) (signs s ++ [sx]))
  | BDeep x =>
      (* bigint.rs:82-87 *)
      do c <- cell_of (mem s) x; do sx <- sign_of s x; do a <- rd_cell (mem s) c;
      Ok (balloc s (BI (trim a) sx))
  | BBin o x y =>
      do cx <- cell_of (mem s) x; do sx <- sign_of s x; do a <- rd_cell (mem s) cx;
      do cy <- cell_of (mem s) y; do sy <- sign_of s y; do b <- rd_cell (mem s) cy;
      do r <- b_op o (BI (trim a) sx) (BI b sy); Ok (balloc s r)
  | BNeg x =>
      (* bigint.rs:981-989 *)
      do cx <- cell_of (mem s) x; do sx <- sign_of s x; do a <- rd_cell (mem s) cx;
      Ok (balloc s (b_neg (BI (trim a) sx)))
  | BAbs x =>
      (* bigint.rs:136-148 *)
      do cx <- cell_of (mem s) x; do sx <- sign_of s x; do a <- rd_cell (mem s) cx;
      Ok (balloc s (b_abs (BI (trim a) sx)))
  | BSign x neg =>
      (* bigint.rs:101-105, 126-130: only the sign of this handle *)
      do cx <- cell_of (mem s) x; do sx <- sign_of s x; do a <- rd_cell (mem s) cx;
      let v := if neg then b_set_negative (BI a sx) else b_set_natural (BI a sx) in
      Ok (BSt (mem s) (set_sign (signs s) x (bneg v)))
  | BAssign o x y =>
      do cx <- cell_of (mem s) x; do sx <- sign_of s x; do a <- rd_cell (mem s) cx;
      do cy <- cell_of (mem s) y; do sy <- sign_of s y; do b <- rd_cell (mem s) cy;
      do r <- (if Nat.eqb cx cy then b_alias fuel o a sx sy else b_op o (BI a sx) (BI b sy));
      Ok (bset s x cx r)
  end.

Fixpoint brun (fuel : nat) (s : bstate) (cs : list bcmd) : res bstate :=
  match cs with
  | [] => Ok s
  | c :: cs' => do s' <- bstep fuel s c; brun fuel s' cs'
  end.

Definition bempty : bstate := BSt empty_state [].

(** What a handle shows. *)
Definition blook (s : bstate) (x : nat) : option bigint :=
  match look (mem s) x, nth_error (signs s) x with
  | Some l, Some b => Some (BI l b)
  | _, _ => None
  end.
