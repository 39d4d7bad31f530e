(** Heap model of shared storage.

    nat.rs:49-51: [struct Nat { nat: Rc<Cell<Vec<u32>>> }]; [Clone] is derived,
    so it copies the [Rc] and both handles refer to the same vector.  Here a
    handle is a variable; [env] maps variables to cells of the heap, a heap is
    a list of word lists.  Rust's rules on overlapping [&] and [&mut] are not
    modelled: an inner routine whose two operands share a cell is given the
    sequential meaning of its loops ([alias2] below).  Dropping a handle has
    no effect on the others and is left out. *)
From Coq Require Import ZArith List Lia Bool.
From Verif Require Import Words NatModel.
Import ListNotations.
Open Scope Z_scope.

Inductive nop := OAdd | OSub | OMul | ODiv | ORem | OAnd | OOr | OXor.
Inductive wop := WAdd | WSub | WMul | WDiv | WRem | WShl | WShr.

(** What a user can do with handles.  Variables are numbered in the order of
    their creation; [CAssign], [CAssignW] create none. *)
Inductive cmd :=
| CNew (l : list Z)                     (* let v = Nat::from(vec) (trims); [] is Nat::nan() *)
| CClone (x : nat)                      (* let v = x.clone(); *)
| CDeep (x : nat)                       (* let v = x.deep_clone(); *)
| CBin (o : nop) (x y : nat)            (* let v = x.clone() op y.clone(); *)
| CBinW (o : wop) (x : nat) (w : Z)     (* let v = x.clone() op w; *)
| CNot (x : nat)                        (* let v = !x.clone(); *)
| CAssign (o : nop) (x y : nat)         (* x op= y.clone(); *)
| CAssignW (o : wop) (x : nat) (w : Z). (* x op= w; *)

(** The inner routine of an operator, operands in different cells
    (nat.rs:2207-2223). *)
Definition inner2 (o : nop) (a b : list Z) : res (list Z) :=
  match o with
  | OAdd => Ok (add_inner a b)
  | OSub => Ok (sub_inner a b)
  | OMul => mul_assign_inner a b
  | ODiv => div_inner a b
  | ORem => rem_inner a b
  | OAnd => Ok (bitand_inner a b)
  | OOr => Ok (bitor_inner a b)
  | OXor => Ok (bitxor_inner a b)
  end.

Definition innerw (o : wop) (a : list Z) (w : Z) : res (list Z) :=
  match o with
  | WAdd => Ok (add_inner_basic a w)
  | WSub => Ok (sub_inner_basic a w)
  | WMul => Ok (mul_inner_basic a w)
  | WDiv => div_inner_basic a w
  | WRem => rem_inner_basic a w
  | WShl => Ok (shl_inner a w)
  | WShr => Ok (shr_inner a w)
  end.

(* ------------------------------------------------------------------ *)
(** * Inner routines when both operands are the same cell *)

(** nat_amd64.rs:17-31: [*a] and [b] are the same word; both lengths were
    read before the loop and are equal, so only the carry is pushed. *)
Fixpoint add_alias (c : Z) (a : list Z) : list Z :=
  match a with
  | [] => if c >? 0 then [c] else []
  | x :: a' => let '(c', s) := adc c x x in s :: add_alias c' a'
  end.

(** nat_amd64.rs:41-64: [*self >= *rhs] compares the cell with itself; the
    skip loop has nothing left; then the cell is trimmed. *)
Fixpoint sub_alias_loop (ge : bool) (c : Z) (a : list Z) : list Z :=
  match a with
  | [] => []
  | x :: a' => let '(c', s) := sbb c x x in s :: sub_alias_loop ge c' a'
  end.
Definition sub_alias (a : list Z) : list Z := trim (sub_alias_loop (nat_ge a a) 0 a).

(** nat_avx2.rs:12-90: the left factor is a deep clone and all lanes are read
    before [v.clear()]; the two early returns leave 0 or 1 in the cell.  The
    right factor has all words of the cell, so there is always room. *)
Definition mul_alias (a : list Z) : list Z :=
  if nat_eq_u32 a 0 then [0]
  else if nat_eq_u32 a 1 then a
  else mul_avx2 shl_exact a a.

(** nat.rs:511-518 [div_inner]: the pointer test. *)
Definition div_alias (a : list Z) : res (list Z) :=
  if nat_eq_u32 a 0 then Panic else Ok [1].

(** nat.rs:564-580 [rem_inner]: [self] and [rhs] are the same cell, so the
    comparison never says Less and [rhs] changes while the loop runs;
    [divisor_len] was read before.  The usize subtraction [self.bits_len() -
    divisor_len] panics when negative (overflow checks on; without them the
    shift wraps to about 2^64 and the allocation of the shifted vector aborts
    the process, which is the same outcome for the caller). *)
Fixpoint rem_alias_loop (fuel : nat) (a : list Z) (dlen : Z) : res (list Z) :=
  match cmp_inner a a with
  | Lt => Ok a
  | _ =>
      match fuel with
      | O => Fuel
      | S f =>
          let shift := bits_len a - dlen in
          if shift <? 0 then Panic
          else
            let den := shl_inner a shift in
            let den' := match cmp_inner a den with Lt => shr_inner den 1 | _ => den end in
            rem_alias_loop f (sub_inner a den') dlen
      end
  end.
Definition rem_alias (fuel : nat) (a : list Z) : res (list Z) :=
  if nat_eq_u32 a 0 then Panic
  else match cmp_inner a a with
       | Lt => Ok a
       | _ => do r <- rem_alias_loop fuel a (bits_len a); Ok (trim r)
       end.

(** nat.rs:583-618: word-wise; equal lengths, so nothing is appended. *)
Definition and_alias (a : list Z) : list Z :=
  trim (firstn (Nat.min (length a) (length a)) (map (fun x => Z.land x x) a)).
Definition or_alias (a : list Z) : list Z := map (fun x => Z.lor x x) a.
Definition xor_alias (a : list Z) : list Z := trim (map (fun x => Z.lxor x x) a).

Definition alias2 (fuel : nat) (o : nop) (a : list Z) : res (list Z) :=
  match o with
  | OAdd => Ok (add_alias 0 a)
  | OSub => Ok (sub_alias a)
  | OMul => Ok (mul_alias a)
  | ODiv => div_alias a
  | ORem => rem_alias fuel a
  | OAnd => Ok (and_alias a)
  | OOr => Ok (or_alias a)
  | OXor => Ok (xor_alias a)
  end.

(* ------------------------------------------------------------------ *)
(** * Programs *)

Record state := St { env : list nat; heap : list (list Z) }.

Definition cell_of (s : state) (x : nat) : res nat :=
  match nth_error (env s) x with Some c => Ok c | None => Panic end.
Definition rd_cell (s : state) (c : nat) : res (list Z) :=
  match nth_error (heap s) c with Some l => Ok l | None => Panic end.
Fixpoint set_nth (l : list (list Z)) (i : nat) (v : list Z) : list (list Z) :=
  match l, i with
  | [], _ => []
  | _ :: t, O => v :: t
  | h :: t, S j => h :: set_nth t j v
  end.
(** [Rc::new(Cell::new(v))] bound to a new variable. *)
Definition alloc (s : state) (v : list Z) : state :=
  St (env s ++ [length (heap s)]) (heap s ++ [v]).

(** One command.  [fuel] bounds the only loop that may not end. *)
Definition step (fuel : nat) (s : state) (c : cmd) : res state :=
  match c with
  | CNew l => Ok (alloc s (trim l))
  | CClone x => do c <- cell_of s x; Ok (St (env s ++ [c]) (heap s))
  | CDeep x =>
      (* nat.rs:93-95, 2038-2060: [Nat::from(slice)] copies and trims *)
      do c <- cell_of s x; do a <- rd_cell s c; Ok (alloc s (trim a))
  | CBin o x y =>
      (* nat_macro.rs:91-103: NaN check, deep clone of the left operand, inner routine *)
      do cx <- cell_of s x; do cy <- cell_of s y;
      do a <- rd_cell s cx; do b <- rd_cell s cy;
      if is_nan a || is_nan b then Ok (alloc s nan)
      else do r <- inner2 o (trim a) b; Ok (alloc s r)
  | CBinW o x w =>
      do cx <- cell_of s x; do a <- rd_cell s cx;
      if is_nan a then Ok (alloc s nan)
      else do r <- innerw o (trim a) w; Ok (alloc s r)
  | CNot x =>
      do cx <- cell_of s x; do a <- rd_cell s cx; Ok (alloc s (nat_not a))
  | CAssign o x y =>
      (* nat_macro.rs:105-113: in place *)
      do cx <- cell_of s x; do cy <- cell_of s y;
      do a <- rd_cell s cx; do b <- rd_cell s cy;
      if is_nan a || is_nan b then Ok (St (env s) (set_nth (heap s) cx nan))
      else
        do r <- (if Nat.eqb cx cy then alias2 fuel o a else inner2 o a b);
        Ok (St (env s) (set_nth (heap s) cx r))
  | CAssignW o x w =>
      do cx <- cell_of s x; do a <- rd_cell s cx;
      if is_nan a then Ok (St (env s) (set_nth (heap s) cx nan))
      else do r <- innerw o a w; Ok (St (env s) (set_nth (heap s) cx r))
  end.

Fixpoint run (fuel : nat) (s : state) (cs : list cmd) : res state :=
  match cs with
  | [] => Ok s
  | c :: cs' => do s' <- step fuel s c; run fuel s' cs'
  end.

Definition empty_state : state := St [] [].

(** What a handle shows. *)
Definition look (s : state) (x : nat) : option (list Z) :=
  match nth_error (env s) x with Some c => nth_error (heap s) c | None => None end.
