(** Model of the Windows entropy back end (os/windows/bcrypt.rs) and of
    [CryptoRand] on top of it (crypto_rand.rs:15-31, 42-57).

    The three foreign functions are the operating system: what they answer is
    part of the program ([wop]) or an argument.  [mem::forget] and panics that
    leave a value undropped are not modelled. *)
From Coq Require Import Ascii String ZArith List Bool.
From Verif Require Import Words NatConv Rand.
Import ListNotations.
Open Scope Z_scope.

(* ------------------------------------------------------------------ *)
(** * Handles *)

(** The calls the system sees, bcrypt.rs:20-25. *)
Inductive event : Set := EOpen (h : Z) | EClose (h : Z) | ERandom (h n : Z).

(** bcrypt.rs:52-54 [AlgorithmHandle]; 116-119 [BCrypt] is an
    [Rc<AlgorithmHandle>]: a cell with its reference count.  A variable holds
    one or the other; it is gone after a move or a drop. *)
Record cell : Set := Cell { chandle : Z; crefs : nat }.
Inductive slot : Set := SHandle (h : Z) | SCrypt (c : nat) | SGone.
Record wstate : Set := WS { wslots : list slot; wcells : list cell; wlog : list event }.
Definition w_init : wstate := WS [] [] [].

Fixpoint upd {A : Type} (i : nat) (x : A) (l : list A) : list A :=
  match l, i with
  | [], _ => []
  | _ :: l', O => x :: l'
  | y :: l', S i' => y :: upd i' x l'
  end.

(** What a program does with variables.  [WOpen a]: one of the constructors of
    bcrypt.rs:90-113, [a] is the handle the system answers, [None] an error
    status.  The others work on variable [i]. *)
Inductive wop : Set :=
  | WOpen (a : option Z)
  | WNew (i : nat)
  | WClone (i : nat)
  | WGen (i : nat) (n : Z)
  | WDrop (i : nat).

(** One step; [None]: the compiler refuses the program, because the variable
    has been moved or dropped or has another type. *)
Definition wstep (s : wstate) (o : wop) : option wstate :=
  match o with
  (** 75-87 [open_algorithm_provider]: a failed call makes no [AlgorithmHandle]. *)
  | WOpen None => Some s
  | WOpen (Some h) => Some (WS (wslots s ++ [SHandle h]) (wcells s) (wlog s ++ [EOpen h]))
  (** 122-126 [BCrypt::new] moves the handle into a new cell. *)
  | WNew i =>
      match nth i (wslots s) SGone with
      | SHandle h => Some (WS (upd i SGone (wslots s) ++ [SCrypt (length (wcells s))]) (wcells s ++ [Cell h 1]) (wlog s))
      | _ => None
      end
  (** 116 [derive(Clone)]: the count goes up. *)
  | WClone i =>
      match nth i (wslots s) SGone with
      | SCrypt c =>
          let k := nth c (wcells s) (Cell 0 0) in
          Some (WS (wslots s ++ [SCrypt c]) (upd c (Cell (chandle k) (S (crefs k))) (wcells s)) (wlog s))
      | _ => None
      end
  (** 128-139 [gen_random]. *)
  | WGen i n =>
      match nth i (wslots s) SGone with
      | SCrypt c => Some (WS (wslots s) (wcells s) (wlog s ++ [ERandom (chandle (nth c (wcells s) (Cell 0 0))) n]))
      | _ => None
      end
  (** 56-62 [drop] of an [AlgorithmHandle]; dropping an [Rc] drops the content
      with the last reference. *)
  | WDrop i =>
      match nth i (wslots s) SGone with
      | SHandle h => Some (WS (upd i SGone (wslots s)) (wcells s) (wlog s ++ [EClose h]))
      | SCrypt c =>
          let k := nth c (wcells s) (Cell 0 0) in
          let n := Nat.pred (crefs k) in
          Some (WS (upd i SGone (wslots s)) (upd c (Cell (chandle k) n) (wcells s))
                   (if (n =? 0)%nat then wlog s ++ [EClose (chandle k)] else wlog s))
      | SGone => None
      end
  end.
Fixpoint wrun (s : wstate) (p : list wop) : option wstate :=
  match p with [] => Some s | o :: p' => match wstep s o with Some s' => wrun s' p' | None => None end end.

(* ------------------------------------------------------------------ *)
(** * The texts handed to the system *)

(** bcrypt.rs:15-17, 35-41, 90-113: the buffers for the algorithm and the
    implementation, [None] a null pointer.  The texts are ASCII, so
    [encode_wide] gives their codes.  [push(0)] is missing in
    [ms_platform_crypto_provider]. *)
Inductive provider : Set := Primitive | Platform | Auto.
Definition alg_buffer : list Z := str "RNG" ++ [0].
Definition impl_buffer (p : provider) : option (list Z) :=
  match p with
  | Primitive => Some (str "Microsoft Primitive Provider" ++ [0])
  | Platform => Some (str "Microsoft Platform Crypto Provider")
  | Auto => None
  end.

(* ------------------------------------------------------------------ *)
(** * Random bytes *)

(** bcrypt.rs:128-139: the length is cast to ULONG (32 bits on Windows).
    [sys n] is the call with that length: the bytes written, or a failure
    (which may have written anything: [junk]). *)
Definition win_gen_random (sys : Z -> option (list Z)) (junk buf : list Z) : bool * list Z :=
  let n := Z.of_nat (length buf) mod 2 ^ 32 in
  match sys n with
  | Some bs => (true, bs ++ skipn (length bs) buf)
  | None => (false, junk)
  end.
(** crypto_rand.rs:44-55. *)
Definition win_crypto_gen (len : nat) (sys : Z -> option (list Z)) (junk : list Z) : rres Z :=
  let '(ok, buf) := win_gen_random sys junk (repeat 0 len) in
  if ok then ROk (fold_right (fun d acc => d + 256 * acc) 0 buf) else RErr InnerErr.
(** crypto_rand.rs:15-31 [new]: open, then move into a [BCrypt]; [a] is the
    system's answer. *)
Definition win_crypto_new (s : wstate) (a : option Z) : rres wstate :=
  match a with
  | None => RErr InnerErr
  | Some h => match wrun s [WOpen (Some h); WNew (length (wslots s))] with Some s' => ROk s' | None => RErr InnerErr end
  end.
