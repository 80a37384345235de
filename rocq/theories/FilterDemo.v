(** Concrete integer filter used by the examples and refutations: the response of function [f] on [args] is
    [f :: args]; function 9 fails. *)
From Verif Require Import Base ConvolveModel FilterModel.

Definition demo_ir (f : nat) (args : list Z) : option (list Z) :=
  match f with 9 => None | _ => Some (Z.of_nat f :: args) end.
Definition demo_run (ir_f : nat -> list Z -> option (list Z)) (mem_ok : nat -> bool) :=
  run_calls Z 0%Z Z.add Z.mul ir_f mem_ok (repeat 55%Z) (repeat 66%Z).
Definition demo_call (a : list Z) (f : nat) (args : list Z) : call Z := {| c_in := a; c_f := f; c_args := args |}.
Definition empty_heap : heap Z := {| cells := []; attempts := 0 |}.

