(** Property C102: failures in sp_seq_parallel *)
From Verif Require Import Base ParFailModel ParFailSpec ParFailProofs.

(** In every execution without undefined behaviour the returned status does not depend on the schedule: it is the first failure in the order of the list.
    The events are released exactly if the call failed, and when it succeeds all evaluations have ended. *)
Theorem c102_status : forall array_room jobs schedule s r, run array_room jobs schedule start = Some s -> at_ s = Returned r ->
  r = expected array_room jobs /\ (events_alive s = true <-> r = None) /\ (r = None -> length (tasks s) = length jobs /\ Forall (fun x => x = 0) (tasks s)).
Proof. exact returned_status. Qed.
Print Assumptions c102_status.
(** two events, the second fails *)
Example c102_status_case : exists s, run true [mkjob true 1 None; mkjob true 0 (Some 7)]
    [Main; Main; Main; Worker 1; Main; Main; Worker 0; Main; Worker 0; Main; Main] start = Some s /\ at_ s = Returned (Some (Of 7)) /\ events_alive s = false.
Proof. eexists. split; [reflexivity|]. split; reflexivity. Qed.

(** No thread uses released memory and the call can return from every state, if memory runs out before the first future is created or if no event but the last one fails.
    Missing: the other failures, for which it is false. *)
Theorem c102_failures_partial : forall array_room jobs schedule, harmless array_room jobs -> exists s schedule' s' r,
  run array_room jobs schedule start = Some s /\ run array_room jobs schedule' s = Some s' /\ at_ s' = Returned r.
Proof. exact harmless_returns. Qed.
Print Assumptions c102_failures_partial.
Example c102_partial_met : harmless true ([mkjob true 3 None; mkjob true 0 None] ++ [mkjob true 2 (Some 4)]).
Proof. apply LastFails; repeat constructor. Qed.

(** For all other failures there is a schedule in which a thread uses memory after it has been released: one event evaluates while the call returns. *)
Theorem c102_failures_refuted : forall array_room jobs, harmful array_room jobs -> exists schedule, run array_room jobs schedule start = None.
Proof. exact harmful_used. Qed.
Print Assumptions c102_failures_refuted.
Example c102_refuted_met : harmful true ([] ++ mkjob true 0 (Some 4) :: [mkjob true 0 None]) /\ harmful true ([mkjob true 0 None] ++ mkjob false 0 None :: []).
Proof. split; [apply EarlierFails|apply NoLaterBlock]; repeat constructor; try discriminate. Qed.
(** the first event has failed, the second one uses its block *)
Example c102_refuted_case : run true [mkjob true 0 (Some 4); mkjob true 0 None] [Main; Main; Main; Main; Worker 0; Main; Worker 1] start = None.
Proof. reflexivity. Qed.

(** There are no further cases. *)
Theorem c102_failures_exact : forall array_room jobs,
  (forall schedule, run array_room jobs schedule start <> None) <-> harmless array_room jobs.
Proof.
  intros array_room jobs. split.
  - intros H. destruct (cases array_room jobs) as [Hh|Hh]; [exact Hh|]. destruct (harmful_used _ _ Hh) as [schedule E]. destruct (H schedule E).
  - intros Hh schedule. destruct (harmless_returns array_room jobs schedule Hh) as (s & _ & _ & _ & E & _). congruence.
Qed.
Print Assumptions c102_failures_exact.
Example c102_exact_case : ~ harmless true [mkjob true 0 (Some 4); mkjob true 0 None].
Proof. intros H. exact (proj2 (c102_failures_exact _ _) H [Main; Main; Main; Main; Worker 0; Main; Worker 1] eq_refl). Qed.
