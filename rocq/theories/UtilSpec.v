(** What registers and paths mean. *)
From Verif Require Import Base UtilModel.
Open Scope nat_scope.

(** a register as a stack: adding puts on top, freeing takes all from the top down *)
Fixpoint freed_by {A : Type} (stack : list A) (l : list (use A)) : list A :=
  match l with [] => [] | Add a :: l => freed_by (a :: stack) l | FreeAll :: l => stack ++ freed_by [] l end.
Fixpoint left_after {A : Type} (stack : list A) (l : list (use A)) : list A :=
  match l with [] => stack | Add a :: l => left_after (a :: stack) l | FreeAll :: l => left_after [] l end.
(** all that was added *)
Fixpoint added {A : Type} (l : list (use A)) : list A := match l with [] => [] | Add a :: l => a :: added l | FreeAll :: l => added l end.
(** the register never holds more than [room] elements in addition *)
Fixpoint fits {A : Type} (size n : nat) (l : list (use A)) : Prop :=
  match l with [] => True | Add _ :: l => n < size /\ fits size (S n) l | FreeAll :: l => fits size 0 l end.

(** the path itself and the directories that contain it *)
Definition leads_to (q p : path) : Prop := exists n, n <= length (components p) /\ q = mkpath (begins p) (skipn n (components p)).
(** nothing is removed *)
Definition keeps (w w' : world) : Prop := forall q, present w q = true -> present w' q = true.
(** no other process creates anything *)
Definition alone (others : nat -> path -> bool) : Prop := forall t q, others t q = false.
