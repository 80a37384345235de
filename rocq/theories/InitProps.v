(** C90: initialisation and sine functions *)
From Verif Require Import Base BlockModel RandModel MiscModel MiscSpec InitModel InitSpec InitProofs.
From Coq Require Import Reals.
Open Scope nat_scope.

(** For every even rate below 2^32 / 100 and every outcome of the allocations and of the creation of threads, if memory errors have a nonzero id:
    initialisation succeeds exactly if all parts succeed. After success the variables have the passed values and the tables are one period each.
    After failure no memory is left allocated and no threads are running.
    Missing for the full property: odd rates (c74_sine_period_odd_refuted) and the memory id that the code has (c90_memory_refuted). *)
Theorem c90_initialize_partial : forall memory_id future_result ok ok_lfo cpus channels k g m,
  memory_id <> 0%Z -> 0 < k -> (2 * Z.of_nat k * 100 < two32)%Z -> fresh m -> threads g = false ->
  exists st g' m', initialize memory_id future_result ok ok_lfo cpus channels (2 * Z.of_nat k) g m = Some (st, g', m') /\
  (is_failure st = false <-> (cpus = 0 \/ future_result = 0)%Z /\ ok = true /\ ok_lfo = true) /\
  (is_failure st = true -> same_memory m m' /\ threads g' = false) /\
  (is_failure st = false ->
    rate g' = (2 * Z.of_nat k)%Z /\ channel_count g' = channels /\ cpu_count g' = cpus /\ threads g' = negb (cpus =? 0)%Z /\ sine_lfo_factor g' = 100%Z /\ random_state g' = sp_random_state_new 1557083953 /\
    exists p q, sine_table g' = Some (p, 0) /\ sine_table_lfo g' = Some (q, 0) /\ two_more m m' p (period (2 * k)) q (period (2 * (k * 100)))).
Proof. exact initialize_correct. Qed.
Print Assumptions c90_initialize_partial.
(** initialisation followed by sp_deinitialize leaves the memory as it was *)
Theorem c90_cycle_partial : forall memory_id future_result cpus channels k g m,
  memory_id <> 0%Z -> 0 < k -> (2 * Z.of_nat k * 100 < two32)%Z -> fresh m -> threads g = false -> (cpus = 0 \/ future_result = 0)%Z ->
  exists st g1 m1 g2 m2, initialize memory_id future_result true true cpus channels (2 * Z.of_nat k) g m = Some (st, g1, m1) /\ is_failure st = false /\
  deinitialize g1 m1 = Some (g2, m2) /\ same_memory m m2 /\ threads g2 = false.
Proof. exact cycle. Qed.
Print Assumptions c90_cycle_partial.
(** After initialisation sp_sine adds a sine with the frequency in hertz (periods in [rate] samples), sp_sine_lfo one with hundredths of hertz:
    the sample i is at the sum of the previous frequencies. The factor is amp times amod, or amp times amp without amod (c73_wave_amplitude_refuted). *)
Theorem c90_sine_partial : forall memory_id future_result ok ok_lfo cpus channels k g m st g' m' size amp amod frq fmod phs out start frequency amplitude,
  memory_id <> 0%Z -> 0 < k -> (2 * Z.of_nat k * 100 < two32)%Z -> fresh m -> threads g = false ->
  initialize memory_id future_result ok ok_lfo cpus channels (2 * Z.of_nat k) g m = Some (st, g', m') -> is_failure st = false ->
  length out = size -> match phs with Some p => p | None => 0%Z end = start ->
  (forall i, i < size -> optional_get fmod frq i = Some (frequency i)) -> (forall i, i < size -> optional_get amod amp i = Some (amplitude i)) ->
  ((0 <= start < 2 * Z.of_nat k)%Z -> (forall i : nat, (i < size)%nat -> 0 <= frequency i /\ 2 * Z.of_nat k + frequency i <= two32)%Z ->
   exists out' phs', sine g' m' size amp amod frq fmod phs out = Some (out', phs') /\ length out' = size /\
   forall i o, i < size -> nth_error out i = Some o -> nth_error out' i = Some (o + amp * amplitude i * sin (2 * PI * IZR (start + zsum (map frequency (seq 0 i))) / INR (2 * k)))%R) /\
  ((0 <= start < 2 * Z.of_nat k * 100)%Z -> (forall i : nat, (i < size)%nat -> 0 <= frequency i /\ 2 * Z.of_nat k * 100 + frequency i <= two32)%Z ->
   exists out' phs', sine_lfo g' m' size amp amod frq fmod phs out = Some (out', phs') /\ length out' = size /\
   forall i o, i < size -> nth_error out i = Some o -> nth_error out' i = Some (o + amp * amplitude i * sin (2 * PI * IZR (start + zsum (map frequency (seq 0 i))) / INR (2 * k * 100)))%R).
Proof. exact initialized_sine. Qed.
Print Assumptions c90_sine_partial.
(** a library and a memory to begin with *)
Definition nothing : library :=
  {| sine_table := None; sine_table_lfo := None; cpu_count := 0; rate := 0; channel_count := 0; random_state := (0, 0, 0, 0)%Z; sine_lfo_factor := 0; threads := false |}.
Definition no_memory : mem R := {| cells := fun _ => None; next := 0 |}.
Example c90_case : exists st g m out, initialize 1 0 true true 2 2 4 nothing no_memory = Some (st, g, m) /\ is_failure st = false /\ fresh no_memory /\
  sine g m 3 1 (Some [1; 1; 1]%R) 1 None None [0; 5; 0]%R = Some (out, None) /\ nth_error out 1 = Some (5 + 1 * 1 * sin (2 * PI * 1 / 4))%R.
Proof.
  assert (F : fresh no_memory) by (intros q _; reflexivity).
  destruct (c90_initialize_partial 1 0 true true 2 2 2 nothing no_memory ltac:(discriminate) ltac:(lia) ltac:(reflexivity) F eq_refl) as (st & g & m & E & I & _).
  assert (S : is_failure st = false) by (apply I; auto). change (2 * Z.of_nat 2)%Z with 4%Z in E.
  assert (A : forall i, i < 3 -> optional_get (Some [1; 1; 1]%R) 1%R i = Some 1%R) by (intros [|[|[|i]]] H; try reflexivity; lia).
  destruct (c90_sine_partial 1 0 true true 2 2 2 nothing no_memory st g m 3 1%R (Some [1; 1; 1]%R) 1 None None [0; 5; 0]%R 0%Z (fun _ => 1%Z) (fun _ => 1%R)
    ltac:(discriminate) ltac:(lia) ltac:(reflexivity) F eq_refl E S eq_refl eq_refl (fun i _ => eq_refl) A) as [P _].
  destruct P as (out & phs' & E1 & _ & G); [split; [discriminate|reflexivity]|intros; split; [discriminate|cbv; discriminate]|].
  assert (phs' = None).
  { unfold sine in E1. destruct (table_of m (sine_table g)); [|discriminate]. cbn [bind] in E1. unfold wave in E1.
    match type of E1 with context [for_ ?a ?b ?c ?d] => destruct (for_ a b c d) as [[o p]|] end; [|discriminate]. cbn [bind] in E1. now injection E1 as _ <-. }
  subst. exists st, g, m, out. repeat split; auto. rewrite (G 1 5%R ltac:(lia) eq_refl). cbn [seq map zsum fold_right]. do 5 f_equal. replace (INR (2 * 2)) with 4%R by (cbn; ring). reflexivity.
Qed.
(** with the id for memory errors that the code has, 0, a failing allocation is not noticed and the null pointer is written to, for every rate above one *)
Theorem c90_memory_refuted : forall ok_lfo future_result cpus channels r g m, (2 <= r < two32)%Z -> (cpus = 0 \/ future_result = 0)%Z ->
  initialize sph_helper_status_id_memory future_result false ok_lfo cpus channels r g m = None.
Proof. exact undetected. Qed.
Print Assumptions c90_memory_refuted.
(** sp_deinitialize after a failed sp_initialize frees the first table a second time *)
Theorem c90_deinitialize_refuted : forall memory_id cpus future_result channels r g m st g' m', memory_id <> 0%Z -> (cpus = 0 \/ future_result = 0)%Z -> fresh m ->
  initialize memory_id future_result true false cpus channels r g m = Some (st, g', m') -> is_failure st = true /\ deinitialize g' m' = None.
Proof. exact deinitialize_dangling. Qed.
Print Assumptions c90_deinitialize_refuted.
