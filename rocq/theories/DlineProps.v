(** Properties of random numbers and lines in double precision: C109, C110 *)
From Coq Require Import ZArith Reals QArith Qreals List Lia Lra.
From Flocq Require Import Core BinarySingleNaN.
From Verif Require Import Base RandModel DblModel DblSpec DblProofs Dbl2Proofs DlineModel DlineSpec DlineProofs.
Import ListNotations.
Open Scope R_scope.

(** C109: the numbers from 0 to 1 and from -1 to 1 are computed without any rounding error: they are the numbers of the exact generator, in the documented range, and the state follows it *)
Theorem c109_exact : forall s,
  (finite (fst (random_f64_64 s)) /\ real (fst (random_f64_64 s)) = Q2R (fst (random_f64 s)) /\ snd (random_f64_64 s) = snd (random_f64 s) /\ 0 <= real (fst (random_f64_64 s)) < 1) /\
  (finite (fst (random_0to1_64 s)) /\ real (fst (random_0to1_64 s)) = Q2R (fst (random_f64_0to1 s)) /\ snd (random_0to1_64 s) = snd (random_f64_0to1 s) /\ 0 <= real (fst (random_0to1_64 s)) < 1) /\
  (finite (fst (random_1to1_64 s)) /\ real (fst (random_1to1_64 s)) = Q2R (fst (random_f64_1to1 s)) /\ snd (random_1to1_64 s) = snd (random_f64_1to1 s) /\ -1 <= real (fst (random_1to1_64 s)) < 1).
Proof. intros s. split; [exact (full_exact s)|]. split; [exact (unit_exact s)|exact (signed_exact s)]. Qed.
Print Assumptions c109_exact.
Example c109_exact_case : let s := (2 ^ 63, 5, 7, 2 ^ 62)%Z in B2SF (fst (random_1to1_64 s)) = B2SF (fmake 1 (-1)) /\ B2SF (fst (random_0to1_64 s)) = B2SF (fmake 3 (-2)).
Proof. vm_compute. auto. Qed.
(** C109 (partial): numbers below a range are not negative, below the range, and have the error of one rounding. Missing: ranges up to 2 ^ -1022, see below. *)
Theorem c109_bounded_partial : forall range s, finite range -> / IZR (2 ^ 1022) < real range ->
  finite (fst (random_bounded_64 range s)) /\ 0 <= real (fst (random_bounded_64 range s)) < real range /\
  Rabs (real (fst (random_bounded_64 range s)) - real range * Q2R (fst (random_f64_0to1 s))) <= unit_roundoff * real range + / IZR (2 ^ 1022) /\
  snd (random_bounded_64 range s) = snd (random_f64_0to1 s).
Proof.
  intros range s f h. rewrite <- tiny_real in *. pose proof (bpow_gt_0 radix2 (-1022)). destruct (bounded_range range s f) as (h1 & h2 & h3); [lra|]. destruct (bounded_error range s f) as [h4 h5]; [lra|].
  specialize (h3 h). split; [exact h1|]. split; [lra|]. split; [exact h4|exact h5].
Qed.
Print Assumptions c109_bounded_partial.
(** the greatest number below 3 *)
Example c109_bounded_case : let s := (2 ^ 64 - 1, 5, 7, 0)%Z in B2SF (fst (random_bounded_64 (f_of_Z 3) s)) = B2SF (fmake (3 * 2 ^ 51 - 1) (-51)).
Proof. vm_compute. reflexivity. Qed.
(** C109 (refuted): for every smaller positive range there are states for which the result is the range itself *)
Theorem c109_bounded_refuted : forall range s, finite range -> 0 < real range <= / IZR (2 ^ 1022) -> fst (random_u64_plus s) = (2 ^ 64 - 1)%Z ->
  real (fst (random_bounded_64 range s)) = real range.
Proof. intros range s f h hs. rewrite <- tiny_real in h. exact (tiny_reached range s f h hs). Qed.
Print Assumptions c109_bounded_refuted.
Example c109_bounded_refuted_case : fst (random_u64_plus (2 ^ 64 - 1, 5, 7, 0)%Z) = (2 ^ 64 - 1)%Z /\ B2SF (fst (random_bounded_64 (fmake 1 (-1074)) (2 ^ 64 - 1, 5, 7, 0)%Z)) = B2SF (fmake 1 (-1074)).
Proof. vm_compute. auto. Qed.

(** C110: a line between two points with integer positions below 2 ^ 32 and values of at most [M] in magnitude: exactly the window is written, all values are between the values of the points,
    differ from the exact line by a few roundings at most, and the first point is met exactly *)
Theorem c110_line : forall x0 x1 start fin p q out o M, (0 <= x0 <= start)%Z -> (start <= fin <= x1)%Z -> (x1 < 2 ^ 32)%Z ->
  finite (dx p) -> finite (dx q) -> finite (dy p) -> finite (dy q) -> real (dx p) = IZR x0 -> real (dx q) = IZR x1 ->
  Rabs (real (dy p)) <= M -> Rabs (real (dy q)) <= M -> M <= IZR (2 ^ 1000) -> (o + Z.to_nat (fin - start) <= length out)%nat ->
  exists out', line_generate64 start fin p q out o = Some out' /\ length out' = length out /\
    (forall i, (i < o \/ o + Z.to_nat (fin - start) <= i)%nat -> nth_error out' i = nth_error out i) /\
    forall i, (i < Z.to_nat (fin - start))%nat -> exists v, nth_error out' (o + i) = Some v /\ finite v /\ between (real (dy p)) (real (dy q)) (real v) /\
      Rabs (real v - line_at x0 x1 (real (dy p)) (real (dy q)) (start + Z.of_nat i)) <= 10 * unit_roundoff * M + / IZR (2 ^ 1019) /\ (start + Z.of_nat i = x0 -> real v = real (dy p))%Z.
Proof.
  intros x0 x1 start fin p q out o M h1 h2 h3 h4 h5 h6 h7 h8 h9 h10 h11 h12 h13. destruct (line_generate_ok x0 x1 start fin p q out o M h1 h2 h3 h4 h5 h6 h7 h8 h9 h10 h11 h12 h13) as (out' & e & l & r & g).
  exists out'. split; [exact e|]. split; [exact l|]. split; [exact r|]. intros i hi. destruct (g i hi) as (v & g1 & g2 & g3 & g4 & g5 & _). exists v. split; [exact g1|]. split; [exact g2|]. split; [exact g3|]. split; [|exact g5].
  replace (/ IZR (2 ^ 1019)) with (bpow radix2 (-1019)); [exact g4|]. change (-1019)%Z with (- (1019))%Z. rewrite bpow_opp. reflexivity.
Qed.
Print Assumptions c110_line.
(** from (0, 1) to (8, 2), the window from 3 to 6 *)
Example c110_line_case : option_map (map (@B2SF 53 1024)) (line_generate64 3 6 {| dx := f_of_Z 0; dy := f_of_Z 1 |} {| dx := f_of_Z 8; dy := f_of_Z 2 |} (repeat fzero 5) 1) =
  Some (map (@B2SF 53 1024) [fzero; fmake 11 (-3); fmake 12 (-3); fmake 13 (-3); fzero]).
Proof. vm_compute. reflexivity. Qed.
(** C110: the double at a position does not depend on the window it is requested with *)
Theorem c110_windows : forall x0 x1 p q s1 f1 out1 o1 r1 s2 f2 out2 o2 r2 x, (0 <= x0)%Z -> (x0 <= s1 <= f1)%Z -> (x0 <= s2 <= f2)%Z -> (f1 <= x1 < 2 ^ 32)%Z -> (f2 <= x1)%Z ->
  finite (dx p) -> finite (dx q) -> finite (dy p) -> finite (dy q) -> real (dx p) = IZR x0 -> real (dx q) = IZR x1 -> Rabs (real (dy p)) <= IZR (2 ^ 1000) -> Rabs (real (dy q)) <= IZR (2 ^ 1000) ->
  line_generate64 s1 f1 p q out1 o1 = Some r1 -> line_generate64 s2 f2 p q out2 o2 = Some r2 -> (o1 + Z.to_nat (f1 - s1) <= length out1)%nat -> (o2 + Z.to_nat (f2 - s2) <= length out2)%nat ->
  (s1 <= x < f1)%Z -> (s2 <= x < f2)%Z -> nth_error r1 (o1 + Z.to_nat (x - s1)) = nth_error r2 (o2 + Z.to_nat (x - s2)).
Proof. exact line_windows. Qed.
Print Assumptions c110_windows.
Example c110_windows_case : let p := {| dx := f_of_Z 0; dy := fmake 1 (-3) |} in let q := {| dx := f_of_Z 7; dy := f_of_Z 2 |} in
  option_map (fun r => nth_error (map (@B2SF 53 1024) r) 4) (line_generate64 0 7 p q (repeat fzero 7) 0) = option_map (fun r => nth_error (map (@B2SF 53 1024) r) 1) (line_generate64 3 6 p q (repeat fzero 3) 0) /\
  line_generate64 3 6 p q (repeat fzero 3) 0 <> None.
Proof. split; [vm_compute; reflexivity|]. intros e. apply (f_equal (fun o => match o with Some _ => true | None => false end)) in e. vm_compute in e. discriminate. Qed.
