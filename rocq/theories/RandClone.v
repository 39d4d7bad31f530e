(** Model of several entropy handles in one program, and of the hardware
    generators of the x86 build. *)
From Coq Require Import ZArith List Bool.
From Verif Require Import Words Rand.
Import ListNotations.
Open Scope Z_scope.

(** os/linux/mod.rs:24-27: [BCrypt] derives [Clone], so does [CryptoRand] of
    the portable build (crypto_rand.rs:9-13); a clone gets a copy of the queue.
    Handles are numbered in the order of their creation. *)
Inductive ccmd :=
| CNew                                                        (* BCrypt::new() *)
| CClone (h : nat)                                            (* h.clone() *)
| CGen (h : nat) (sys : option (list Z)) (buf : list Z).      (* h.gen_random(&mut buf); [sys] as in [gen_random] *)

Fixpoint set_queue (qs : list (list Z)) (h : nat) (q : list Z) : list (list Z) :=
  match qs, h with
  | [], _ => []
  | _ :: t, O => q :: t
  | a :: t, S k => a :: set_queue t k q
  end.

(** One command: the answer of a request (success and the buffer after it),
    and the queues. *)
Definition cstep (qs : list (list Z)) (c : ccmd) : res (list (bool * list Z) * list (list Z)) :=
  match c with
  | CNew => Ok ([], qs ++ [[]])
  | CClone h => match nth_error qs h with Some q => Ok ([], qs ++ [q]) | None => Panic end
  | CGen h sys buf =>
      match nth_error qs h with
      | Some q => let '(ok, out, q') := gen_random q sys buf in Ok ([(ok, out)], set_queue qs h q')
      | None => Panic
      end
  end.
Fixpoint crun (qs : list (list Z)) (cs : list ccmd) : res (list (bool * list Z) * list (list Z)) :=
  match cs with
  | [] => Ok ([], qs)
  | c :: cs' => do '(o, qs1) <- cstep qs c; do '(os, qs2) <- crun qs1 cs'; Ok (o ++ os, qs2)
  end.

(** default_rand_amd64.rs:19-27, 40-50 and default_seed_amd64.rs:22-30, 46-54:
    one [_rdrand..._step] or [_rdseed..._step].  The hardware is the list of
    what it will do: the flag and the word it writes; when the list has run out,
    every further step fails. *)
Definition hw_step (e : rand_err) (hw : list (bool * Z)) : rres Z * list (bool * Z) :=
  match hw with
  | [] => (RErr e, [])
  | (flag, out) :: hw' => (if flag then ROk out else RErr e, hw')
  end.
(** default_rand_amd64.rs:60-93, [DefaultRand::gen]; [CryptoRand] of this build
    (crypto_rand_amd64.rs:19-31) calls it. *)
Definition hw_default_gen := hw_step NoNewRandNumberGen.
Definition hw_crypto_gen := hw_default_gen.
(** default_seed_amd64.rs:65-85, [DefaultSeed::seed]. *)
Definition hw_seed := hw_step NoNewRandSeedGen.
