(** C88: moving numbers away from the multiples of a base *)
From Verif Require Import Base MiscModel HarModel HarProofs Har2Proofs.
From Coq Require Import QArith Qround Qminmax.
Open Scope nat_scope.

(** the result is at most half of base away. The bound shrinks with the distance to the next multiple above;
    not below: see the refutation *)
Theorem c88_deharmonize_partial :
  forall (St : Type) (bounded : Z -> St -> option (Z * St)) (random : St -> Z * St) (a base : Z) (amount : Q) (st : St),
  (forall range st, (0 < range)%Z -> exists r st', bounded range st = Some (r, st') /\ (0 <= r < range)%Z) ->
  (0 <= a)%Z -> (2 <= base)%Z -> (a + base < two32)%Z -> (0 <= amount <= 1)%Q ->
  let above := ((a + base - 1) / base * base)%Z in
  exists z st', deharmonize bounded random a base amount st = Some (z, st') /\
  (Z.abs (z - a) <= base / 2)%Z /\
  (inject_Z (Z.abs (z - a)) < amount * (inject_Z (base - (above - a)) / inject_Z base) * inject_Z (base / 2) + 1)%Q /\
  ((amount == 0)%Q -> z = a) /\
  ((a < above)%Z -> (base / 2 <= a)%Z -> (z <= a)%Z).
Proof. intros. exact (deharmonize_correct bounded random a base amount st H H0 H1 H2 H3). Qed.
Print Assumptions c88_deharmonize_partial.
(** every draw of the numbers below the range: 0, 1, 2, ... *)
Definition counting (range st : Z) : option (Z * Z) := Some (st mod range, st + 1)%Z.
Example c88_instance :
  (forall range st, (0 < range)%Z -> exists r st', counting range st = Some (r, st') /\ (0 <= r < range)%Z) /\
  deharmonize counting (fun st => (st, st)) 200 10 1 3%Z = Some (204, 4)%Z /\
  deharmonize counting (fun st => (st, st)) 200 10 1 4%Z = Some (195, 5)%Z /\
  deharmonize counting (fun st => (st, st)) 198 10 1 4%Z = Some (194, 5)%Z.
Proof.
  split; [|repeat split]. intros range st H. exists (st mod range)%Z, (st + 1)%Z. split; [reflexivity|]. apply Z.mod_pos_bound. exact H.
Qed.
(** "the nearer values are to the multiple, the further": one above a multiple the value is never moved by more than one,
    while in the middle between two multiples, as far from them as possible, the largest draw moves it by at least a quarter of base *)
Theorem c88_nearer_further_refuted :
  forall (St : Type) (bounded : Z -> St -> option (Z * St)) (random : St -> Z * St) (k half : Z) (st st' : St),
  (forall range st, (0 < range)%Z -> exists r st', bounded range st = Some (r, st') /\ (0 <= r < range)%Z) ->
  bounded half st = Some (half - 1, st')%Z -> (0 <= k)%Z -> (1 <= half)%Z -> (k * (2 * half) + 1 + half + 2 * half < two32)%Z ->
  (forall amount st, (0 <= amount <= 1)%Q ->
    exists z st', deharmonize bounded random (k * (2 * half) + 1) (2 * half) amount st = Some (z, st') /\ (Z.abs (z - (k * (2 * half) + 1)) <= 1)%Z) /\
  exists z, deharmonize bounded random (k * (2 * half) + half) (2 * half) 1 st = Some (z, st') /\ (half <= 2 * Z.abs (z - (k * (2 * half) + half)))%Z.
Proof.
  intros St bounded random k half st st' hb hd hk hh hw. split.
  - intros amount st0 ha. apply deharmonize_next_to; auto; lia.
  - apply deharmonize_middle; auto; lia.
Qed.
Print Assumptions c88_nearer_further_refuted.
Example c88_nearer_further_instance : counting 50 49%Z = Some (49, 50)%Z /\ deharmonize counting (fun st => (st, st)) 101 100 1 49%Z = Some (100, 50)%Z /\
  deharmonize counting (fun st => (st, st)) 150 100 1 49%Z = Some (125, 50)%Z.
Proof. repeat split. Qed.
