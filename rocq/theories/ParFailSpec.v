(** What sp_seq_parallel should return *)
From Verif Require Import Base ParFailModel.

(** the first failure in the order of the list *)
Fixpoint first_failure (jobs : list job) : option failure :=
  match jobs with [] => None | j :: rest => match outcome j with Some id => Some (Of id) | None => first_failure rest end end.
(** no memory for the futures or for a block comes before failures of events *)
Definition expected (array_room : bool) (jobs : list job) : option failure :=
  if array_room && forallb room jobs then first_failure jobs else Some NoMemory.

Definition quiet (j : job) : Prop := outcome j = None.
(** memory fails before the first future is created, or only the last event fails *)
Inductive harmless : bool -> list job -> Prop :=
| NoArray jobs : harmless false jobs
| NoFirstBlock j jobs : room j = false -> harmless true (j :: jobs)
| NoFailure jobs : Forall (fun j => room j = true) jobs -> Forall quiet jobs -> harmless true jobs
| LastFails jobs j : Forall (fun j => room j = true) (jobs ++ [j]) -> Forall quiet jobs -> harmless true (jobs ++ [j]).
(** all others *)
Inductive harmful : bool -> list job -> Prop :=
| NoLaterBlock a x b : a <> [] -> Forall (fun j => room j = true) a -> room x = false -> harmful true (a ++ x :: b)
| EarlierFails a x b : b <> [] -> Forall (fun j => room j = true) (a ++ x :: b) -> Forall quiet a -> ~ quiet x -> harmful true (a ++ x :: b).
