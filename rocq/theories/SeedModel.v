(** The random numbers of noise events that are prepared in parallel.
    sp_noise_event_prepare, /repo/source/c-precompiled/sph-sp/sequencer.c:620, draws a seed from the global sp_random_state (main.h:121). In sp_seq_parallel
    it is called in the threads of the pool (sequencer.c:286-297), without a lock.

    - Drawing is two steps here: reading the state and writing the new one (sph_random_u64, random.c:29-43). The code has more, this is the coarsest division
      in which the threads can interleave. In C11 the unlocked access is a data race, which is undefined behaviour.
    - The other parts of the preparation use memory of the event only and are left out. *)
From Verif Require Import Base RandModel.

(** the preparation of a noise event. [Has r]: random_state of the config is set to [r] *)
Inductive noise := Waiting | Reading (s : rstate) | Has (r : rstate).
Record state := mkstate { global : rstate; events : list noise }.
(** one step of the thread that prepares event [i]. [None]: there is no such event *)
Definition step (i : nat) (s : state) : option state :=
  e <- aget (events s) i ;;
  match e with
  | Waiting => l <- aset (events s) i (Reading (global s)) ;; Some (mkstate (global s) l)
  | Reading r =>
    let '(seed, r) := random_u32 r in
    l <- aset (events s) i (Has (sp_random_state_new seed)) ;; Some (mkstate r l)
  | Has _ => Some s
  end.
Fixpoint run (schedule : list nat) (s : state) : option state :=
  match schedule with [] => Some s | i :: rest => s <- step i s ;; run rest s end.
Definition start (r : rstate) (n : nat) : state := mkstate r (repeat Waiting n).
