(** sp_sine_period with real numbers. The rounding of double arithmetic and of sin is left out; [size / 2] is the integer
    division of the C code. *)
From Coq Require Import Reals List.
Import ListNotations.
Open Scope R_scope.

(** sp_sine_period, /repo/source/c-precompiled/sph-sp/main.c:191-195. Division by zero for size 1 gives infinity in C, it is
    [None] here. Result: the size values written to out *)
Definition sine_period (size : nat) : option (list R) :=
  if Nat.eqb size 1 then None
  else Some (map (fun i => sin (INR i * (PI / INR (Nat.div size 2)))) (seq 0 size)).
