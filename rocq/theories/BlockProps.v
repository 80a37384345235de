(** Properties C59 and C62 *)
From Verif Require Import Base BlockModel BlockSpec BlockProofs.

(** C59 refuted: the status of the allocation functions says success for every outcome, because the id for memory errors is 0. *)
Theorem c59_failure_refuted : forall (A : Type) (a result : option A), is_failure (fst (helper_alloc sph_helper_status_id_memory a result)) = false.
Proof. intros A [x|] result; reflexivity. Qed.
Print Assumptions c59_failure_refuted.
(** C59: with the id zero the caller of sph_helper_malloc_string continues with a pointer that has no value. *)
Theorem c59_caller_refuted : forall (length : nat) (result : option (list Z)), helper_malloc_string sph_helper_status_id_memory None length result = None.
Proof. reflexivity. Qed.
Print Assumptions c59_caller_refuted.
(** C59, what holds: the group of the status tells if the allocation failed; the result is set if and only if it did not fail; and with any other id
    the failure would be reported and callers would not use the result. *)
Theorem c59_group_partial : forall (A : Type) (memory_id : Z) (a result : option A),
  (s_group (fst (helper_alloc memory_id a result)) = group_sph <-> a = None) /\
  snd (helper_alloc memory_id a result) = (match a with Some p => Some p | None => result end) /\
  (memory_id <> 0%Z -> (is_failure (fst (helper_alloc memory_id a result)) = true <-> a = None)).
Proof.
  intros A memory_id [x|] result; cbn [helper_alloc fst snd s_group success memory_error]; splits; auto; try (split; congruence).
  - intros _. split; [discriminate|discriminate].
  - intros h. split; [reflexivity|]. intros _. unfold is_failure, memory_error. cbn [s_id]. rewrite (proj2 (Z.eqb_neq _ _) h). reflexivity.
Qed.
Print Assumptions c59_group_partial.
Theorem c59_string_partial : forall (memory_id : Z) (a result : option (list Z)) (n : nat), memory_id <> 0%Z -> (forall p, a = Some p -> length p = S n) ->
  match a with
  | None => helper_malloc_string memory_id a n result = Some (memory_error memory_id, result)
  | Some p => exists q, helper_malloc_string memory_id a n result = Some (success, Some q) /\ length q = S n /\ nth_error q n = Some 0%Z
  end.
Proof.
  intros memory_id [p|] result n h hp; unfold helper_malloc_string; cbn [helper_alloc].
  - cbn [is_failure success s_id Z.eqb negb bind]. destruct (aset_some p n 0%Z) as [q e]; [rewrite (hp p eq_refl); lia|]. rewrite e. cbn [bind]. exists q. splits; auto.
    + rewrite (aset_length _ _ _ _ e). auto.
    + rewrite (aset_get _ _ _ _ n e), Nat.eqb_refl. reflexivity.
  - unfold is_failure at 1, memory_error at 1. cbn [s_id]. rewrite (proj2 (Z.eqb_neq _ _) h). reflexivity.
Qed.
Print Assumptions c59_string_partial.
Example c59_instance :
  fst (helper_alloc sph_helper_status_id_memory (Some 7) None) = success /\ s_group (fst (helper_alloc sph_helper_status_id_memory (@None nat) None)) = group_sph /\
  helper_malloc_string 1 (Some [170; 170; 170]%Z) 2 None = Some (success, Some [170; 170; 0]%Z).
Proof. splits; reflexivity. Qed.

(** C62: if all allocations succeed, for every size and up to the 2 channels of sp_block_t, sp_block_new gives separate new zeroed arrays and changes nothing else *)
Theorem c62_new :
  forall (V : Type) (zero : V) (memory_id : Z) (cc size : nat) (out : block) (m : mem V), cc <= length (b_samples out) ->
  exists b m', block_new V zero memory_id (fun _ => true) cc size out m = Some (success, b, m') /\ b_size b = size /\ b_channels b = cc /\
    owns V m' b (fun c => next V m + c) /\ unchanged_but V m m' cc (fun c => next V m + c) /\
    forall c i, c < cc -> sample_at V m' b c i = if i <? size then Some zero else None.
Proof. exact block_new_ok. Qed.
Print Assumptions c62_new.
(** C62: more channels than the array in sp_block_t has are written outside of it. *)
Theorem c62_too_many_channels :
  forall (V : Type) (zero : V) (memory_id : Z) (cc size : nat) (out : block) (m : mem V), length (b_samples out) < cc ->
  block_new V zero memory_id (fun _ => true) cc size out m = None.
Proof. exact block_new_too_many. Qed.
Print Assumptions c62_too_many_channels.
(** C62: if an allocation fails then nothing stays allocated, provided that the id for memory errors is not 0. Missing: in the code it is 0, see c62_new_failure_refuted. *)
Theorem c62_new_failure_partial :
  forall (V : Type) (zero : V) (memory_id : Z) (ok : nat -> bool) (cc size : nat) (out : block) (m : mem V), memory_id <> 0%Z -> cc <= length (b_samples out) ->
  (exists j, j < cc /\ ok j = false) ->
  exists b m', block_new V zero memory_id ok cc size out m = Some (memory_error memory_id, b, m') /\ b_size b = b_size out /\
    forall q, q < next V m -> cells V m' q = cells V m q.
Proof. exact block_new_failure. Qed.
Print Assumptions c62_new_failure_partial.

Definition demo_block : block := {| b_size := 0; b_channels := 0; b_samples := [None; None] |}.
Definition demo_mem : mem Z := {| cells := fun _ => None; next := 0 |}.
(** C62 refuted for failing allocations: if the first fails an uninitialised pointer is used; if only the second fails the result is success, the channels are
    the same array and freeing the block frees it twice. *)
Theorem c62_new_failure_refuted :
  block_new Z 0%Z sph_helper_status_id_memory (fun i => negb (i =? 0)) 2 3 demo_block demo_mem = None /\
  exists b m, block_new Z 0%Z sph_helper_status_id_memory (fun i => negb (i =? 1)) 2 3 demo_block demo_mem = Some (success, b, m) /\
    channel b 0 = channel b 1 /\ channel b 0 <> None /\ block_free Z b m = None.
Proof. split; [reflexivity|]. eexists. eexists. split; [reflexivity|]. splits; try reflexivity. discriminate. Qed.
Print Assumptions c62_new_failure_refuted.

(** C62: freeing a block of size other than 0 frees each channel exactly once and nothing else. *)
Theorem c62_free :
  forall (V : Type) (b : block) (m : mem V) (address : nat -> nat), b_size b <> 0 -> owns V m b address ->
  exists m', block_free V b m = Some m' /\ (forall c, c < b_channels b -> cells V m' (address c) = None) /\ unchanged_but V m m' (b_channels b) address.
Proof. exact block_free_ok. Qed.
Print Assumptions c62_free.
(** C62 refuted for size 0: the arrays allocated by sp_block_new are not freed. *)
Theorem c62_free_empty_refuted :
  exists b m, block_new Z 0%Z sph_helper_status_id_memory (fun _ => true) 1 0 demo_block demo_mem = Some (success, b, m) /\ cells Z m 0 <> None /\ block_free Z b m = Some m.
Proof. eexists. eexists. split; [reflexivity|]. split; [discriminate|reflexivity]. Qed.
Print Assumptions c62_free_empty_refuted.

(** C62: the block with an offset has the same samples from the offset on, in all channels. The size is that of the original block. *)
Theorem c62_with_offset :
  forall (V : Type) (b : block) (offset : nat), (forall c, c < b_channels b -> channel b c <> None) ->
  exists b', with_offset b offset = Some b' /\ b_size b' = b_size b /\ b_channels b' = b_channels b /\
    forall (m : mem V) c i, c < b_channels b -> sample_at V m b' c i = sample_at V m b c (offset + i).
Proof. exact with_offset_ok. Qed.
Print Assumptions c62_with_offset.
(** C62: zeroing sets all samples of all channels and nothing else. *)
Theorem c62_zero :
  forall (V : Type) (zero : V) (b : block) (m : mem V) (address : nat -> nat), owns V m b address ->
  exists m', block_zero V zero b m = Some m' /\ unchanged_but V m m' (b_channels b) address /\
    forall c i, c < b_channels b -> sample_at V m' b c i = if i <? b_size b then Some zero else sample_at V m b c i.
Proof. exact block_zero_ok. Qed.
Print Assumptions c62_zero.
(** C62: copying makes exactly the samples of all channels of [a] those of [b]. Larger blocks [b] keep the rest. *)
Theorem c62_copy :
  forall (V : Type) (a b : block) (m : mem V) (A B : nat -> nat), owns V m a A -> owns V m b B -> b_channels a <= b_channels b -> b_size a <= b_size b ->
  (forall c c', c < b_channels a -> c' < b_channels b -> A c <> B c') ->
  exists m', block_copy V a b m = Some m' /\ unchanged_but V m m' (b_channels a) B /\
    forall c i, c < b_channels b -> sample_at V m' b c i = if (c <? b_channels a) && (i <? b_size a) then sample_at V m a c i else sample_at V m b c i.
Proof. exact block_copy_ok. Qed.
Print Assumptions c62_copy.
Definition demo_a : block := {| b_size := 2; b_channels := 1; b_samples := [Some (0, 0); None] |}.
Definition demo_b : block := {| b_size := 3; b_channels := 2; b_samples := [Some (1, 0); Some (2, 0)] |}.
Definition demo_mem2 : mem Z := {| cells := fun q => nth q [Some [1; 2]; Some [3; 4; 5]; Some [6; 7; 8]]%Z None; next := 3 |}.
Example c62_instance :
  owns Z demo_mem2 demo_a (fun c => c) /\ owns Z demo_mem2 demo_b S /\
  option_map (fun m => map (cells Z m) [0; 1; 2]) (block_copy Z demo_a demo_b demo_mem2) = Some [Some [1; 2]; Some [1; 2; 5]; Some [6; 7; 8]]%Z /\
  option_map (fun m => map (cells Z m) [0; 1; 2]) (block_zero Z 0%Z demo_b demo_mem2) = Some [Some [1; 2]; Some [0; 0; 0]; Some [0; 0; 0]]%Z /\
  option_map (fun m => map (cells Z m) [0; 1; 2]) (block_free Z demo_b demo_mem2) = Some [Some [1; 2]; None; None]%Z /\
  (b <- with_offset demo_b 1 ;; sample_at Z demo_mem2 b 1 1) = Some 8%Z.
Proof.
  splits; try reflexivity.
  - intros [|c] hc; cbn in hc; try lia. splits; try reflexivity; [eexists; split; [reflexivity|cbn; lia]|intros; lia].
  - intros [|[|c]] hc; cbn in hc; try lia; (splits; try reflexivity; [eexists; split; [reflexivity|cbn; lia]|intros; lia]).
Qed.
