(** * C127: new arrays, copies and constant arrays *)
From Verif Require Import Base BlockModel DupModel DupSpec DupProofs.
Open Scope nat_scope.

(** a memory with one array of three elements, at address 4 *)
Definition demo_memory : mem Z := {| cells := fun q => if q =? 4 then Some [7; 8; 9]%Z else None; next := 5 |}.

(** C127 (partial): with memory, new arrays are zero and separate. The status id for a lack of memory is any number here, as it is not used *)
Theorem c127_new_partial : forall (V : Type) (zero : V) (memory_id : Z) (count : nat) (out : option pointer) (m : mem V), honest V m ->
  exists p m', array_new V zero memory_id true count out m = (success, Some p, m') /\ one_more V m p (repeat zero count) m'.
Proof. exact new_some. Qed.
Print Assumptions c127_new_partial.
(** a copy has the elements of the source from the pointer on, is not in the same array, and nothing else changes *)
Theorem c127_duplicate_partial : forall (V : Type) (zero : V) (memory_id : Z) (a : pointer) (l : list V) (out : option pointer) (m : mem V),
  honest V m -> (forall i, i < length l -> load V m a i = nth_error l i) -> l <> [] ->
  exists p m', array_duplicate V zero memory_id true a (length l) out m = Some (success, Some p, m') /\ one_more V m p l m' /\ fst p <> fst a.
Proof. exact duplicate_some. Qed.
Print Assumptions c127_duplicate_partial.
Example c127_duplicate_instance : honest Z demo_memory /\ (forall i, i < 2 -> load Z demo_memory (4, 1) i = nth_error [8; 9]%Z i) /\
  option_map (fun r => (snd (fst r), map (cells Z (snd r)) [3; 4; 5])) (array_duplicate Z 0%Z sph_helper_status_id_memory true (4, 1) 2 None demo_memory) =
  Some (Some (5, 0), [None; Some [7; 8; 9]%Z; Some [8; 9]%Z]).
Proof. split; [reflexivity|]. split; [|reflexivity]. intros [|[|i]] hi; try reflexivity; lia. Qed.
(** constant arrays *)
Theorem c127_constant_partial : forall (V : Type) (zero : V) (memory_id : Z) (count : nat) (v : V) (out : option pointer) (m : mem V), honest V m ->
  exists p m', times_constant V zero memory_id true count v out m = Some (success, Some p, m') /\ one_more V m p (repeat v count) m'.
Proof. exact constant_some. Qed.
Print Assumptions c127_constant_partial.
Example c127_constant_instance : honest Z demo_memory /\
  option_map (fun r => (snd (fst r), map (cells Z (snd r)) [3; 4; 5])) (times_constant Z 0%Z sph_helper_status_id_memory true 3 6%Z None demo_memory) =
  Some (Some (5, 0), [None; Some [7; 8; 9]%Z; Some [6; 6; 6]%Z]).
Proof. split; reflexivity. Qed.
(** such an array can be written without changing any other, and freeing it leaves the memory as it was before *)
Theorem c127_separate : forall (V : Type) (m : mem V) (p : pointer) (l : list V) (m' : mem V), one_more V m p l m' ->
  (forall i x, i < length l -> exists m2, store V m' p i x = Some m2 /\ forall q, q <> fst p -> cells V m2 q = cells V m q) /\
  (exists m2, free V m' p = Some m2 /\ forall q, cells V m2 q = cells V m q).
Proof. exact one_more_separate. Qed.
Print Assumptions c127_separate.
Example c127_separate_instance : exists m', one_more Z demo_memory (5, 0) [1; 2]%Z m'.
Proof.
  exists {| cells := fun q => if q =? 5 then Some [1; 2]%Z else cells Z demo_memory q; next := 6 |}. unfold one_more. splits; try reflexivity.
  intros q hq. cbn [cells fst] in *. destruct (Nat.eqb_spec q 5); [contradiction|reflexivity].
Qed.
(** C127 refuted: without memory the functions that copy or set elements use a pointer that has no value, and sp_samples_new and others report success but
    leave the pointer as it is, whatever the arguments *)
Theorem c127_failure_refuted : forall (V : Type) (zero : V) (a : pointer) (count : nat) (v : V) (out : option pointer) (m : mem V),
  array_duplicate V zero sph_helper_status_id_memory false a count out m = None /\ times_constant V zero sph_helper_status_id_memory false count v out m = None /\
  exists st, array_new V zero sph_helper_status_id_memory false count out m = (st, out, m) /\ is_failure st = false.
Proof. intros. splits; try reflexivity. eexists. split; reflexivity. Qed.
Print Assumptions c127_failure_refuted.
(** C127 (partial): with any other id for a lack of memory, the failure is reported and nothing changes. Missing: in the code the id is 0, see c127_failure_refuted *)
Theorem c127_failure_partial : forall (V : Type) (zero : V) (memory_id : Z) (a : pointer) (count : nat) (v : V) (out : option pointer) (m : mem V), memory_id <> 0%Z ->
  array_new V zero memory_id false count out m = (memory_error memory_id, out, m) /\ array_duplicate V zero memory_id false a count out m = Some (memory_error memory_id, out, m) /\
  times_constant V zero memory_id false count v out m = Some (memory_error memory_id, out, m).
Proof. exact failure_reported. Qed.
Print Assumptions c127_failure_partial.
Example c127_failure_instance : (1 <> 0)%Z /\ times_constant Z 0%Z 1 false 3 6%Z (Some (4, 0)) demo_memory = Some (memory_error 1, Some (4, 0), demo_memory).
Proof. split; [discriminate|reflexivity]. Qed.
