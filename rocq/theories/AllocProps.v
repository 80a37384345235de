(** * C121: arrays for events when memory is short *)
From Verif Require Import Base ResModel ResSpec ResProofs AllocModel AllocProofs.

(** For every number of arrays and every pattern of failures, allocating arrays for an event up to the first failure and then freeing the event is free of invalid
    and double frees and leaves at most one region behind; none if all calls succeed, and none if no registration fails.
    Missing: a failed registration, see below *)
Theorem c121_released_partial : forall calls s, valid s ->
  exists success s2 n, arrays_and_free calls s = Some (success, s2) /\ left_behind s s2 n /\ n <= 1 /\ (success = true -> n = 0) /\ (Forall (fun x => snd x = true) calls -> n = 0) /\
    (Forall (fun x => x = (true, true)) calls -> success = true).
Proof. exact arrays_released. Qed.
Print Assumptions c121_released_partial.
(** false in general: if the register needs memory and there is none then the array that was allocated for the event is lost. It needs memory for the first array and
    whenever the number of arrays is 4, 8, 16, ... *)
Theorem c121_registration_refuted : forall n rest s, valid s -> (n = 0 \/ exists i, n = 4 * 2 ^ i) ->
  exists s2, arrays_and_free (repeat (true, true) n ++ (true, false) :: rest) s = Some (false, s2) /\ left_behind s s2 1.
Proof. exact registration_fails. Qed.
Print Assumptions c121_registration_refuted.
(** at other numbers no registration fails *)
Theorem c121_room_partial : forall n s, valid s -> n <> 0 -> (forall i, n <> 4 * 2 ^ i) -> exists s2, arrays_and_free (repeat (true, true) n ++ [(true, false)]) s = Some (true, s2) /\ left_behind s s2 0.
Proof. exact registration_room. Qed.
Print Assumptions c121_room_partial.
Definition no_regions : store := mkstore (fun _ => false) 0.
Definition remaining (n : nat) (r : option (bool * store)) : option (bool * list nat) := option_map (fun '(ok, s) => (ok, filter (live s) (seq 0 n))) r.
Example c121_instance : valid no_regions /\ remaining 20 (arrays_and_free (repeat (true, true) 9) no_regions) = Some (true, []) /\
  remaining 20 (arrays_and_free (repeat (true, true) 6 ++ [(false, true)]) no_regions) = Some (false, []) /\
  remaining 20 (arrays_and_free (repeat (true, true) 4 ++ [(true, false)]) no_regions) = Some (false, [5]) /\
  remaining 20 (arrays_and_free (repeat (true, true) 5 ++ [(true, false)]) no_regions) = Some (true, []).
Proof. split; [intros q h; discriminate h |]. repeat split. Qed.
