(** Which random numbers noise events should get *)
From Verif Require Import Base RandModel SeedModel.

(** the state of the event that is prepared after [k] others: a generator with the number drawn after [k] others as its seed *)
Definition nth_noise (r : rstate) (k : nat) : rstate := sp_random_state_new (fst (random_u32 (Nat.iter k (fun r => snd (random_u32 r)) r))).
(** the events are prepared one after the other in this order *)
Definition one_by_one (order : list nat) : list nat := flat_map (fun i => [i; i]) order.
(** all of [n] events have been prepared *)
Definition all_have (n : nat) (which : nat -> rstate) (s : state) : Prop := forall i, i < n -> nth_error (events s) i = Some (Has (which i)).
