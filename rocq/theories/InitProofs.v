From Verif Require Import Base BlockModel BlockProofs RandModel MiscModel MiscSpec MiscProofs ArrProofs InitModel InitSpec.
From Coq Require Import Reals Lra.
Open Scope nat_scope.

Lemma even_half (k : nat) : 0 < k -> forall i, (INR i * (PI / INR (2 * k / 2)) = 2 * PI * INR i / INR (2 * k))%R.
Proof.
  intros Hk i. rewrite (Nat.mul_comm 2 k), Nat.div_mul by lia. rewrite mult_INR. change (INR 2) with (1 + 1)%R.
  assert (INR k <> 0%R) by (apply not_0_INR; lia). field. auto.
Qed.
Lemma period_length n : length (period n) = n.
Proof. unfold period. now rewrite map_length, seq_length. Qed.
Lemma period_nth n i : i < n -> nth_error (period n) i = Some (sin (2 * PI * INR i / INR n))%R.
Proof. intro H. unfold period. rewrite nth_error_map, (nth_error_nth' _ 0) by now rewrite seq_length. rewrite seq_nth by auto. reflexivity. Qed.

Lemma sine_period_to_ok k a m l : 0 < k -> cells R m a = Some l -> length l = 2 * k ->
  exists m', sine_period_to (2 * k) (Some (a, 0)) m = Some m' /\ cells R m' a = Some (period (2 * k)) /\ forall q, q <> a -> cells R m' q = cells R m q.
Proof.
  intros Hk Hl HL. destruct (fill_channel R m (a, 0) l (2 * k) (fun i => sin (2 * PI * INR i / INR (2 * k)))%R Hl) as (m' & a' & E & C & L & G & K); [cbn [snd]; lia|].
  exists m'. cbn [fst snd] in *. splits; auto.
  - rewrite <- E. unfold sine_period_to. replace (2 * k / 2 =? 0) with false by (rewrite (Nat.mul_comm 2 k), Nat.div_mul by lia; symmetry; apply Nat.eqb_neq; lia).
    apply for_ext. intros i s. cbn [negb need bind]. now rewrite (even_half k Hk).
  - rewrite C. f_equal. apply nth_error_ext. intro i. rewrite G. destruct (Nat.ltb_spec i (0 + 2 * k)).
    + cbn [andb Nat.leb]. rewrite Nat.sub_0_r. symmetry. apply period_nth. lia.
    + cbn [andb Nat.leb]. rewrite (proj2 (nth_error_None l i)), (proj2 (nth_error_None (period (2 * k)) i)); auto; try rewrite period_length; lia.
Qed.

Lemma free_ok m a l : cells R m a = Some l -> exists m', free R m (a, 0) = Some m' /\ cells R m' a = None /\ (forall q, q <> a -> cells R m' q = cells R m q) /\ next R m' = next R m.
Proof.
  intro H. unfold free. cbn [fst snd]. cbn [Nat.eqb need bind]. rewrite H. cbn [bind]. eexists. splits; [reflexivity|cbn; now rewrite Nat.eqb_refl| |reflexivity].
  intros q Hq. cbn. destruct (Nat.eqb_spec q a); [contradiction|reflexivity].
Qed.

Lemma deinitialize_ok g m m0 p q a b : two_more m0 m p a q b -> sine_table g = Some (p, 0) -> sine_table_lfo g = Some (q, 0) ->
  exists g' m', deinitialize g m = Some (g', m') /\ same_memory m0 m' /\ (threads g = negb (cpu_count g =? 0)%Z -> threads g' = false).
Proof.
  intros (PQ & N1 & N2 & C1 & C2 & K) E1 E2. unfold deinitialize. cbn [sine_table sine_table_lfo]. rewrite E1, E2. cbn [free_pointer].
  destruct (free_ok m p a C1) as (m1 & F1 & D1 & K1 & _). rewrite F1. cbn [bind].
  destruct (free_ok m1 q b) as (m2 & F2 & D2 & K2 & _). { rewrite K1 by congruence. exact C2. }
  rewrite F2. cbn [bind]. eexists. eexists. splits; [reflexivity| |].
  - intro r. destruct (Nat.eq_dec r q) as [->|RQ]; [congruence|]. rewrite K2 by auto. destruct (Nat.eq_dec r p) as [->|RP]; [congruence|]. rewrite K1 by auto. auto.
  - cbn [threads]. destruct (cpu_count g =? 0)%Z; auto.
Qed.

Lemma alloc_get m l : cells R (snd (alloc R m l)) (next R m) = Some l /\ (forall q, q <> next R m -> cells R (snd (alloc R m l)) q = cells R m q) /\ next R (snd (alloc R m l)) = S (next R m) /\ fst (alloc R m l) = next R m.
Proof.
  unfold alloc. cbn. splits; auto. - now rewrite Nat.eqb_refl. - intros q Hq. destruct (Nat.eqb_spec q (next R m)); [contradiction|reflexivity].
Qed.
Lemma samples_new_ok memory_id size p m : samples_new memory_id true size p m = (success, Some (next R m, 0), snd (alloc R m (repeat 0%R size))).
Proof. reflexivity. Qed.
Lemma samples_new_no memory_id size p m : samples_new memory_id false size p m = (memory_error memory_id, p, m).
Proof. reflexivity. Qed.
Lemma memory_failure memory_id : memory_id <> 0%Z -> is_failure (memory_error memory_id) = true.
Proof. intro H. unfold is_failure. cbn [memory_error s_id]. now replace (memory_id =? 0)%Z with false by lia. Qed.

Lemma create_ok memory_id g m k : 0 < k -> rate g = (2 * Z.of_nat k)%Z -> sine_lfo_factor g = 100%Z -> (2 * Z.of_nat k * 100 < two32)%Z -> fresh m ->
  exists m' p q, create_tables memory_id true true g m = Some (success, set_tables (Some (p, 0)) (Some (q, 0)) g, m') /\ two_more m m' p (period (2 * k)) q (period (2 * (k * 100))).
Proof.
  intros Hk HR HL Hw HF. unfold create_tables. rewrite HR, HL. rewrite u32_small by lia.
  replace (Z.to_nat (2 * Z.of_nat k)) with (2 * k) by lia. replace (Z.to_nat (2 * Z.of_nat k * 100)) with (2 * (k * 100)) by lia.
  rewrite samples_new_ok. change (is_failure success) with false. cbv iota.
  destruct (alloc_get m (repeat 0%R (2 * k))) as (A1 & A2 & A3 & _). remember (snd (alloc R m (repeat 0%R (2 * k)))) as m1 eqn:Em1. clear Em1.
  rewrite samples_new_ok. change (is_failure success) with false. cbv iota.
  destruct (alloc_get m1 (repeat 0%R (2 * (k * 100)))) as (B1 & B2 & B3 & _). remember (snd (alloc R m1 (repeat 0%R (2 * (k * 100))))) as m2 eqn:Em2. clear Em2.
  rewrite A3 in *. set (p := next R m) in *.
  destruct (sine_period_to_ok k p m2 (repeat 0%R (2 * k)) Hk) as (m3 & E3 & C3 & K3); [rewrite B2 by lia; exact A1|apply repeat_length|]. rewrite E3. cbn [bind].
  destruct (sine_period_to_ok (k * 100) (S p) m3 (repeat 0%R (2 * (k * 100)))) as (m4 & E4 & C4 & K4); [lia|rewrite K3 by lia; exact B1|apply repeat_length|]. rewrite E4. cbn [bind].
  exists m4, p, (S p). split; [reflexivity|]. unfold two_more. splits.
  - lia.
  - apply HF. subst p. lia.
  - apply HF. subst p. lia.
  - rewrite K4 by lia. exact C3.
  - exact C4.
  - intros r R1 R2. now rewrite K4, K3, B2, A2 by auto.
Qed.
Lemma create_fails memory_id ok ok_lfo g m : memory_id <> 0%Z -> ok && ok_lfo = false -> fresh m -> threads g = negb (cpu_count g =? 0)%Z ->
  exists g' m', create_tables memory_id ok ok_lfo g m = Some (memory_error memory_id, g', m') /\ same_memory m m' /\ threads g' = false.
Proof.
  intros Hid HO HF HT. unfold create_tables. destruct ok.
  - cbn [andb] in HO. subst. rewrite samples_new_ok. change (is_failure success) with false. cbv iota.
    destruct (alloc_get m (repeat 0%R (Z.to_nat (rate g)))) as (A1 & A2 & A3 & _). remember (snd (alloc R m (repeat 0%R (Z.to_nat (rate g))))) as m1 eqn:Em1. clear Em1.
    rewrite samples_new_no, memory_failure by auto. unfold deinitialize. cbn [set_tables sine_table sine_table_lfo free_pointer cpu_count threads].
    destruct (free_ok m1 (next R m) _ A1) as (m2 & E & D & K & _). rewrite E. cbn [bind]. eexists. exists m2. splits; [reflexivity| |].
    + intro r. destruct (Nat.eq_dec r (next R m)) as [->|]; [rewrite D; symmetry; apply HF; lia|]. now rewrite K, A2 by auto.
    + cbn [threads]. destruct (cpu_count g =? 0)%Z; auto.
  - rewrite samples_new_no, memory_failure by auto. unfold deinitialize. cbn [set_tables sine_table sine_table_lfo free_pointer cpu_count threads bind].
    eexists. exists m. splits; [reflexivity|intro; reflexivity|]. cbn [threads]. destruct (cpu_count g =? 0)%Z; auto.
Qed.

Lemma initialize_correct memory_id future_result ok ok_lfo cpus channels k g m : memory_id <> 0%Z -> 0 < k -> (2 * Z.of_nat k * 100 < two32)%Z -> fresh m -> threads g = false ->
  exists st g' m', initialize memory_id future_result ok ok_lfo cpus channels (2 * Z.of_nat k) g m = Some (st, g', m') /\
  (is_failure st = false <-> (cpus = 0 \/ future_result = 0)%Z /\ ok = true /\ ok_lfo = true) /\
  (is_failure st = true -> same_memory m m' /\ threads g' = false) /\
  (is_failure st = false ->
    rate g' = (2 * Z.of_nat k)%Z /\ channel_count g' = channels /\ cpu_count g' = cpus /\ threads g' = negb (cpus =? 0)%Z /\ sine_lfo_factor g' = 100%Z /\ random_state g' = sp_random_state_new 1557083953 /\
    exists p q, sine_table g' = Some (p, 0) /\ sine_table_lfo g' = Some (q, 0) /\ two_more m m' p (period (2 * k)) q (period (2 * (k * 100)))).
Proof.
  intros Hid Hk Hw HF HT. unfold initialize. destruct (negb (cpus =? 0)%Z && negb (future_result =? 0)%Z) eqn:EF.
  - apply andb_true_iff in EF as [E1 E2]. assert (IS : is_failure {| s_id := future_result; s_group := group_undefined |} = true) by (unfold is_failure; cbn [s_id]; exact E2).
    eexists. exists g, m. split; [reflexivity|]. rewrite IS. splits; try discriminate.
    + split; [discriminate|]. intros ([C|C] & _); lia.
    + intros _. split; [intro; reflexivity|exact HT].
  - assert (CF : (cpus = 0 \/ future_result = 0)%Z) by lia.
    match goal with |- context [create_tables _ _ _ ?L m] => remember L as g0 eqn:EG end.
    assert (T0 : threads g0 = negb (cpus =? 0)%Z) by (subst g0; cbn [threads]; destruct (cpus =? 0)%Z; cbn; auto).
    destruct (ok && ok_lfo) eqn:EO.
    + apply andb_true_iff in EO as [-> ->]. destruct (create_ok memory_id g0 m k) as (m' & p & q & E & TM); auto; try (subst g0; reflexivity).
      rewrite E. exists success. eexists. exists m'. split; [reflexivity|]. change (is_failure success) with false. splits; [tauto|discriminate|].
      intros _. cbn [set_tables rate channel_count cpu_count threads sine_lfo_factor random_state sine_table sine_table_lfo].
      splits; try (subst g0; reflexivity); [exact T0|]. exists p, q. auto.
    + destruct (create_fails memory_id ok ok_lfo g0 m Hid EO HF) as (g' & m' & E & SM & T); [subst g0; exact T0|].
      rewrite E. eexists. exists g', m'. split; [reflexivity|]. rewrite memory_failure by auto. splits; try discriminate.
      * split; [discriminate|]. intros (_ & -> & ->). discriminate.
      * auto.
Qed.

(** ** the sine functions *)
Lemma sin_mod (x n : Z) : (0 <= x)%Z -> (0 < n)%Z -> (sin (2 * PI * IZR (x mod n) / IZR n) = sin (2 * PI * IZR x / IZR n))%R.
Proof.
  intros Hx Hn. assert (N : IZR n <> 0%R) by (apply not_0_IZR; lia).
  rewrite (Z.div_mod x n) at 2 by lia. rewrite plus_IZR, mult_IZR.
  assert (Q : (0 <= x / n)%Z) by (apply Z.div_pos; lia).
  replace (IZR (x / n)) with (INR (Z.to_nat (x / n))) by (rewrite INR_IZR_INZ, Z2Nat.id by auto; reflexivity).
  replace (2 * PI * (IZR n * INR (Z.to_nat (x / n)) + IZR (x mod n)) / IZR n)%R with (2 * PI * IZR (x mod n) / IZR n + 2 * INR (Z.to_nat (x / n)) * PI)%R by (field; auto).
  symmetry. apply sin_period.
Qed.

Lemma table_plays n size amp amod frq fmod phs out start frequency amplitude :
  0 < n -> (Z.of_nat n <= two32)%Z -> length out = size ->
  match phs with Some p => p | None => 0%Z end = start -> (0 <= start < Z.of_nat n)%Z ->
  (forall i, i < size -> optional_get fmod frq i = Some (frequency i)) ->
  (forall i, i < size -> optional_get amod amp i = Some (amplitude i)) ->
  (forall i : nat, (i < size)%nat -> 0 <= frequency i /\ Z.of_nat n + frequency i <= two32)%Z ->
  exists out' phs', wave R Rplus Rmult size (period n) (Z.of_nat n) amp amod frq fmod phs out = Some (out', phs') /\ length out' = size /\
  (phs <> None -> phs' = Some ((start + zsum (map frequency (seq 0 size))) mod Z.of_nat n)%Z) /\
  forall i o, i < size -> nth_error out i = Some o ->
    nth_error out' i = Some (o + amp * amplitude i * sin (2 * PI * IZR (start + zsum (map frequency (seq 0 i))) / INR n))%R.
Proof.
  intros Hn Hn2 HO HP HS HF HA HB.
  destruct (wave_correct R Rplus Rmult size (period n) amp amod frq fmod phs out start frequency amplitude) as (out' & E & L & G); rewrite ?period_length; auto.
  rewrite period_length in E, G. exists out'. eexists. split; [exact E|]. split; [exact L|]. split.
  { destruct phs; [reflexivity|congruence]. }
  intros i o Hi Ho. assert (PB : (0 <= phase_at start frequency (Z.of_nat n) i < Z.of_nat n)%Z) by (apply Z.mod_pos_bound; lia).
  rewrite (G i o (sin (2 * PI * INR (Z.to_nat (phase_at start frequency (Z.of_nat n) i)) / INR n))%R Hi Ho); [|apply period_nth; lia].
  do 3 f_equal. rewrite INR_IZR_INZ, Z2Nat.id by lia. rewrite (INR_IZR_INZ n). unfold phase_at. apply sin_mod; [|lia].
  assert (Z0 : forall j, j <= size -> (0 <= zsum (map frequency (seq 0 j)))%Z).
  { clear - HB. induction j as [|j IH]; intro J; [cbn; lia|]. rewrite seq_S, map_app, zsum_app. cbn. specialize (IH ltac:(lia)). destruct (HB j ltac:(lia)). lia. }
  specialize (Z0 i ltac:(lia)). lia.
Qed.

Lemma initialized_sine memory_id future_result ok ok_lfo cpus channels k g m st g' m' size amp amod frq fmod phs out start frequency amplitude :
  memory_id <> 0%Z -> 0 < k -> (2 * Z.of_nat k * 100 < two32)%Z -> fresh m -> threads g = false ->
  initialize memory_id future_result ok ok_lfo cpus channels (2 * Z.of_nat k) g m = Some (st, g', m') -> is_failure st = false ->
  length out = size -> match phs with Some p => p | None => 0%Z end = start ->
  (forall i, i < size -> optional_get fmod frq i = Some (frequency i)) -> (forall i, i < size -> optional_get amod amp i = Some (amplitude i)) ->
  ((0 <= start < 2 * Z.of_nat k)%Z -> (forall i : nat, (i < size)%nat -> 0 <= frequency i /\ 2 * Z.of_nat k + frequency i <= two32)%Z ->
   exists out' phs', sine g' m' size amp amod frq fmod phs out = Some (out', phs') /\ length out' = size /\
   forall i o, i < size -> nth_error out i = Some o -> nth_error out' i = Some (o + amp * amplitude i * sin (2 * PI * IZR (start + zsum (map frequency (seq 0 i))) / INR (2 * k)))%R) /\
  ((0 <= start < 2 * Z.of_nat k * 100)%Z -> (forall i : nat, (i < size)%nat -> 0 <= frequency i /\ 2 * Z.of_nat k * 100 + frequency i <= two32)%Z ->
   exists out' phs', sine_lfo g' m' size amp amod frq fmod phs out = Some (out', phs') /\ length out' = size /\
   forall i o, i < size -> nth_error out i = Some o -> nth_error out' i = Some (o + amp * amplitude i * sin (2 * PI * IZR (start + zsum (map frequency (seq 0 i))) / INR (2 * k * 100)))%R).
Proof.
  intros Hid Hk Hw HF HT E S HO HP HFm HA.
  destruct (initialize_correct memory_id future_result ok ok_lfo cpus channels k g m Hid Hk Hw HF HT) as (st2 & g2 & m2 & E2 & _ & _ & OK). rewrite E in E2. injection E2 as <- <- <-.
  destruct (OK S) as (R1 & _ & _ & _ & R2 & _ & p & q & T1 & T2 & _ & _ & _ & C1 & C2 & _). split; intros HS HB.
  - destruct (table_plays (2 * k) size amp amod frq fmod phs out start frequency amplitude) as (out' & phs' & E3 & L & _ & G); auto; try lia.
    { intros i Hi. destruct (HB i Hi). lia. }
    exists out', phs'. unfold sine, table_of. rewrite T1, R1. cbn [bind fst snd]. rewrite C1. cbn [bind skipn]. replace (2 * Z.of_nat k)%Z with (Z.of_nat (2 * k)) by lia. auto.
  - destruct (table_plays (2 * (k * 100)) size amp amod frq fmod phs out start frequency amplitude) as (out' & phs' & E3 & L & _ & G); auto; try lia.
    { intros i Hi. destruct (HB i Hi). lia. }
    exists out', phs'. unfold sine_lfo, table_of. rewrite T2, R1, R2. cbn [bind fst snd]. rewrite C2. cbn [bind]. change (skipn 0 (period (2 * (k * 100)))) with (period (2 * (k * 100))). rewrite u32_small by lia.
    replace (2 * Z.of_nat k * 100)%Z with (Z.of_nat (2 * (k * 100))) by lia. replace (2 * k * 100) with (2 * (k * 100)) by lia. auto.
Qed.

(** with the memory id of the code *)
Lemma undetected ok_lfo future_result cpus channels r g m : (2 <= r < two32)%Z -> (cpus = 0 \/ future_result = 0)%Z ->
  initialize sph_helper_status_id_memory future_result false ok_lfo cpus channels r g m = None.
Proof.
  intros Hr HC. unfold initialize. replace (negb (cpus =? 0)%Z && negb (future_result =? 0)%Z) with false.
  2:{ destruct HC as [->| ->]; cbn; auto. now rewrite andb_false_r. }
  assert (N : forall m, sine_period_to (Z.to_nat r) None m = None).
  { intro mm. unfold sine_period_to. destruct (Z.to_nat r) as [|n] eqn:E; [lia|]. unfold for_. cbn [Nat.sub for_from]. destruct (need _); reflexivity. }
  unfold create_tables. cbn [rate]. rewrite samples_new_no. change (is_failure (memory_error sph_helper_status_id_memory)) with false. cbv iota.
  destruct ok_lfo; [rewrite samples_new_ok|rewrite samples_new_no]; change (is_failure (memory_error sph_helper_status_id_memory)) with false; change (is_failure success) with false; cbv iota; rewrite N; reflexivity.
Qed.
Lemma deinitialize_dangling memory_id cpus future_result channels r g m st g' m' : memory_id <> 0%Z -> (cpus = 0 \/ future_result = 0)%Z -> fresh m ->
  initialize memory_id future_result true false cpus channels r g m = Some (st, g', m') -> is_failure st = true /\ deinitialize g' m' = None.
Proof.
  intros Hid HC HF E. unfold initialize in E. replace (negb (cpus =? 0)%Z && negb (future_result =? 0)%Z) with false in E.
  2:{ destruct HC as [->| ->]; cbn; auto. now rewrite andb_false_r. }
  match type of E with create_tables _ _ _ ?L m = _ => remember L as g0 eqn:EG end. clear EG.
  unfold create_tables in E. rewrite samples_new_ok in E. change (is_failure success) with false in E. cbv iota in E.
  destruct (alloc_get m (repeat 0%R (Z.to_nat (rate g0)))) as (A1 & A2 & A3 & _). remember (snd (alloc R m (repeat 0%R (Z.to_nat (rate g0))))) as m1 eqn:Em1. clear Em1.
  rewrite samples_new_no, memory_failure in E by auto. unfold deinitialize in E at 1. cbn [set_tables sine_table sine_table_lfo free_pointer cpu_count threads] in E.
  destruct (free_ok m1 (next R m) _ A1) as (m2 & EF & D & K & _). rewrite EF in E. cbn [bind] in E. injection E as <- <- <-.
  split; [now apply memory_failure|]. unfold deinitialize. cbn [sine_table free_pointer]. unfold free. cbn [fst snd Nat.eqb need bind]. rewrite D. reflexivity.
Qed.
Lemma cycle memory_id future_result cpus channels k g m : memory_id <> 0%Z -> 0 < k -> (2 * Z.of_nat k * 100 < two32)%Z -> fresh m -> threads g = false -> (cpus = 0 \/ future_result = 0)%Z ->
  exists st g1 m1 g2 m2, initialize memory_id future_result true true cpus channels (2 * Z.of_nat k) g m = Some (st, g1, m1) /\ is_failure st = false /\
  deinitialize g1 m1 = Some (g2, m2) /\ same_memory m m2 /\ threads g2 = false.
Proof.
  intros Hid Hk Hw HF HT HC. destruct (initialize_correct memory_id future_result true true cpus channels k g m Hid Hk Hw HF HT) as (st & g1 & m1 & E & I & _ & OK).
  assert (S : is_failure st = false) by tauto. destruct (OK S) as (_ & _ & C & T & _ & _ & p & q & T1 & T2 & TM).
  destruct (deinitialize_ok g1 m1 m p q _ _ TM T1 T2) as (g2 & m2 & E2 & SM & TH). exists st, g1, m1, g2, m2. splits; auto. apply TH. now rewrite T, C.
Qed.
