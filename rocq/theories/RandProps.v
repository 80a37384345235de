(** Pseudo random numbers: theorems *)
From Verif Require Import Base MiscModel MiscSpec CombModel CombSpec CombProofs RandModel RandSpec RandProofs Rand2Proofs Rand3Proofs UniProofs.
From Coq Require Import QArith Permutation.
Open Scope nat_scope.

(** C37: the state update maps 256 bit states one to one onto all 256 bit states *)
Theorem c37_state_update_bijective :
  (forall s, valid_state s -> valid_state (state_step s)) /\
  (forall s s', valid_state s -> valid_state s' -> state_step s = state_step s' -> s = s') /\
  (forall s', valid_state s' -> exists s, valid_state s /\ state_step s = s').
Proof.
  splits.
  - exact step_valid.
  - exact step_injective.
  - intros s' H. exists (unstep s'). split; [now apply unstep_valid|now apply step_unstep].
Qed.
Print Assumptions c37_state_update_bijective.
(** C37: no call of sph_random_u64 or sph_random_f64_bounded leads from a non-zero state to the all-zero state *)
Theorem c37_never_zero :
  forall s, valid_state s -> s <> zero_state ->
  snd (random_u64 s) <> zero_state /\ (forall range, snd (random_f64_bounded range s) <> zero_state).
Proof.
  intros s H N. destruct s as [[[s0 s1] s2] s3]. pose proof (step_nonzero _ H N) as G. split; [exact G|intro range; exact G].
Qed.
Print Assumptions c37_never_zero.
(** C37: every seed gives a valid non-zero state *)
Theorem c37_seed_not_zero :
  forall seed : Z, valid_state (random_state_new seed) /\ random_state_new seed <> zero_state /\
  valid_state (sp_random_state_new seed) /\ sp_random_state_new seed <> zero_state.
Proof.
  intro seed. pose proof (state_new_valid seed) as V. pose proof (state_new_nonzero seed) as N.
  assert (G : forall s, snd (random_u32 s) = state_step s) by (intros [[[s0 s1] s2] s3]; reflexivity).
  splits; auto; unfold sp_random_state_new; cbv zeta; rewrite !G; [apply step_valid, step_valid, V|].
  apply step_nonzero; [now apply step_valid|]. now apply step_nonzero.
Qed.
Print Assumptions c37_seed_not_zero.
Example c37_reference : state_step (1, 2, 3, 4)%Z = (7, 0, 262146, 211106232532992)%Z /\ fst (random_u64 (1, 2, 3, 4)%Z) = 11520%Z.
Proof. split; reflexivity. Qed.

(** C38: the result is the outcome of the first accepted number of the source *)
Theorem c38_bounded_first_accepted :
  forall (St : Type) (next : St -> Z * St) (range : Z) (fuel : nat) (st : St) (n : nat) (rejected : list Z) (st1 : St) (x : Z) (st2 : St),
  (0 < range < two64)%Z -> draws next n st = (rejected, st1) -> Forall (fun y => accepted range y = false) rejected ->
  next st1 = (x, st2) -> accepted range x = true -> S n < fuel ->
  random_u64_bounded St next fuel range st = Some (outcome range x, st2).
Proof. exact bounded_forward. Qed.
Print Assumptions c38_bounded_first_accepted.
(** C38: and every result is below the range *)
Theorem c38_bounded_below_range :
  forall (St : Type) (next : St -> Z * St), (forall st, word64 (fst (next st))) ->
  forall (range : Z) (fuel : nat) (st : St) (r : Z) (st2 : St),
  (0 < range < two64)%Z -> random_u64_bounded St next fuel range st = Some (r, st2) ->
  exists n rejected st1 x, draws next n st = (rejected, st1) /\ Forall (fun y => accepted range y = false) rejected /\
  next st1 = (x, st2) /\ accepted range x = true /\ r = outcome range x /\ (0 <= r < range)%Z.
Proof. exact bounded_backward. Qed.
Print Assumptions c38_bounded_below_range.
(** C38: exactly floor(2^64 / range) of the 64 bit numbers are accepted with each outcome: all outcomes are equally likely *)
Theorem c38_uniform :
  forall range v : Z, (0 < range < two64)%Z -> (0 <= v < range)%Z ->
  Z.of_nat (length (filter (fun x => accepted range x && (outcome range x =? v)%Z) (below two64))) = (two64 / range)%Z.
Proof. exact uniform. Qed.
Print Assumptions c38_uniform.
(** C38: more than half of all numbers are accepted, range 0 ends at once *)
Theorem c38_ends :
  (forall range : Z, (0 < range < two64)%Z -> (two64 < 2 * (range * (two64 / range)))%Z) /\
  (forall (St : Type) (next : St -> Z * St) (fuel : nat) (st : St), random_u64_bounded St next fuel 0 st = Some (0%Z, snd (next st))).
Proof.
  split; [exact (more_than_half two64)|]. intros St next fuel st. unfold random_u64_bounded. destruct (next st) as [x s]. rewrite Z.mul_0_r. reflexivity.
Qed.
Print Assumptions c38_ends.
Example c38_instance :
  accepted 6 0 = false /\ accepted 6 (2 ^ 63) = false /\ accepted 6 (2 ^ 62 + 1) = true /\ outcome 6 (2 ^ 62 + 1) = 1%Z /\
  random_u64_bounded (list Z) (fun l => (hd 0%Z l, tl l)) 5 6 [0; 2 ^ 63; 2 ^ 62 + 1; 7]%Z = Some (1%Z, [7%Z]).
Proof. splits; reflexivity. Qed.
(** C38: the 32 bit version used for all times *)
Theorem c38_u32_below_range :
  forall (range : Z) (fuel : nat) (s : rstate) (r : Z) (s2 : rstate),
  (0 < range < two32)%Z -> random_u32_bounded fuel range s = Some (r, s2) -> (0 <= r < range)%Z.
Proof.
  intros range fuel s r s2 H E. unfold random_u32_bounded in E. destruct (random_u64_bounded rstate random_u64 fuel range s) as [[x s1]|] eqn:E1; [|discriminate]. cbn [bind] in E.
  apply bounded_backward in E1; [|apply word_u64_out|unfold two32, two64 in *; lia]. destruct E1 as [n [xs [st1 [y [_ [_ [_ [_ [_ B]]]]]]]]]. injection E as <- _. rewrite u32_small by lia. exact B.
Qed.
Print Assumptions c38_u32_below_range.

(** C31 with this generator: whenever sp_shuffle returns it has permuted the elements *)
Lemma for_from_mono {S} (b1 b2 : nat -> S -> option S) n : forall lo s s', (forall i t t', lo <= i < lo + n -> b1 i t = Some t' -> b2 i t = Some t') ->
  for_from lo n b1 s = Some s' -> for_from lo n b2 s = Some s'.
Proof.
  induction n; intros lo s s' H E; cbn [for_from] in *; [exact E|]. destruct (b1 lo s) as [t|] eqn:E1; [|discriminate]. rewrite (H lo s t ltac:(lia) E1). cbn [bind] in *.
  apply IHn; auto. intros i a b Hi. apply H. lia.
Qed.
Theorem c31_shuffle_with_generator :
  forall (A : Type) (fuel : nat) (l : list A) (count : nat) (s : rstate) (l' : list A) (s' : rstate),
  count <= length l -> (Z.of_nat count < two32)%Z ->
  shuffle (fun s bound => random_u32_bounded fuel bound s) l count s = Some (l', s') ->
  Permutation (firstn count l) (firstn count l') /\ skipn count l' = skipn count l.
Proof.
  intros A fuel l count s l' s' HL HC E.
  set (total := fun (s : rstate) (bound : Z) => if (bound <? two32)%Z then match random_u32_bounded fuel bound s with Some r => Some r | None => Some (0%Z, s) end else Some (0%Z, s)).
  assert (HB : bounded total).
  { intros st b Hb. unfold total. destruct (Z.ltb_spec b two32) as [L|L]; [|exists 0%Z, st; split; [reflexivity|lia]].
    destruct (random_u32_bounded fuel b st) as [[r st']|] eqn:ER; [|exists 0%Z, st; split; [reflexivity|lia]]. exists r, st'. split; [reflexivity|]. apply c38_u32_below_range in ER; auto. }
  assert (E2 : shuffle total l count s = Some (l', s')).
  { unfold shuffle, for_ in *. eapply for_from_mono; [|exact E]. intros i [a t] [a' t'] Hi EB. cbv beta iota in *. unfold total.
    replace (Z.of_nat (count - i) <? two32)%Z with true by lia. destruct (random_u32_bounded fuel (Z.of_nat (count - i)) t) as [[r t1]|]; [exact EB|discriminate]. }
  destruct (shuffle_permutes total l count s HB HL) as [l2 [s2 [E3 P]]]. rewrite E2 in E3. injection E3 as <- <-. exact P.
Qed.
Print Assumptions c31_shuffle_with_generator.
Example c31_generator_instance : exists l' s', shuffle (fun s bound => random_u32_bounded 9 bound s) [1;2;3;4]%Z 4 (random_state_new 1) = Some (l', s').
Proof. vm_compute. eexists _, _. reflexivity. Qed.

(** C39 *)
Theorem c39_floats_exact :
  forall a : Z, word64 a -> exists k, (0 <= k < 2 ^ 53)%Z /\ (f64_from_u64 a == inject_Z k / inject_Z (2 ^ 53))%Q.
Proof. exact f64_exact. Qed.
Print Assumptions c39_floats_exact.
Theorem c39_floats_in_range :
  (forall s, 0 <= fst (random_f64 s) < 1)%Q /\ (forall s, 0 <= fst (random_f64_0to1 s) < 1)%Q /\
  (forall s, -1 <= fst (random_f64_1to1 s) < 1)%Q /\ (forall range s, 0 < range -> 0 <= fst (random_f64_bounded range s) < range)%Q.
Proof.
  splits; [exact random_f64_range| |exact random_1to1_range|exact random_bounded_range]. intro s. exact (random_bounded_range 1 s eq_refl).
Qed.
Print Assumptions c39_floats_in_range.
(** C39: every k comes from the same number of 64 bit numbers *)
Theorem c39_floats_uniform :
  forall k : Z, (0 <= k < 2 ^ 53)%Z -> Z.of_nat (length (filter (fun a => (Z.shiftr a 11 =? k)%Z) (below two64))) = 2048%Z.
Proof. exact f64_fair. Qed.
Print Assumptions c39_floats_uniform.
(** C39: noise samples are multiples of 2^-52, so exact in binary64 *)
Theorem c39_noise_exact :
  forall s : rstate, exists k, (0 <= k < 2 ^ 53)%Z /\ (fst (random_f64_1to1 s) == inject_Z (k - 2 ^ 52) / inject_Z (2 ^ 52))%Q.
Proof. exact random_1to1_exact. Qed.
Print Assumptions c39_noise_exact.
Example c39_instance : word64 (2 ^ 63) /\ (f64_from_u64 (2 ^ 63) == 1 # 2)%Q /\ (f64_from_u64 (2 ^ 64 - 1) < 1)%Q.
Proof. splits; try reflexivity; unfold word64, two64; lia. Qed.

(** C40: filling n + m values is filling n values and then m values behind them, with the same values and the same state.
    [draw] is any of the number functions. *)
Theorem c40_array_split :
  forall (St V : Type) (draw : St -> option (V * St)) (n m : nat) (out : list V) (st : St), n + m <= length out ->
  random_array draw st (n + m) out =
  ('(a, st) <- random_array draw st n (firstn n out) ;; '(b, st) <- random_array draw st m (skipn n out) ;; Some (a ++ b, st)).
Proof. exact random_array_split. Qed.
Print Assumptions c40_array_split.
(** C40: element i is the i-th number of the source *)
Theorem c40_array_is_stream :
  forall (St V : Type) (draw : St -> V * St) (n : nat) (out : list V) (st : St), n <= length out ->
  random_array (fun s => Some (draw s)) st n out = Some (fst (draws draw n st) ++ skipn n out, snd (draws draw n st)).
Proof.
  intros St V draw n out st H. rewrite random_array_correct by exact H.
  assert (E : forall n st, odraws St V (fun s => Some (draw s)) n st = Some (draws draw n st)).
  { induction n0 as [|k IH]; intro s; cbn [odraws draws]; [reflexivity|]. cbn [bind]. destruct (draw s) as [x s1]. rewrite IH. cbn [bind]. destruct (draws draw k s1). reflexivity. }
  rewrite E. cbn [bind]. destruct (draws draw n st). reflexivity.
Qed.
Print Assumptions c40_array_is_stream.
Example c40_instance :
  random_array (fun s => Some (random_u32 s)) (1, 2, 3, 4)%Z 2 [9;9;9]%Z = Some ([0; 0; 9]%Z, state_step (state_step (1, 2, 3, 4)%Z)).
Proof. reflexivity. Qed.

(** C77: sp_normal_random stays in the range while 32 times the maximum fits into 32 bits ... *)
Theorem c77_normal_random_partial :
  forall (St : Type) (draw : Z -> St -> option (Z * St)) (min max : Z) (st : St) (r : Z) (st' : St),
  (forall range st x st', draw range st = Some (x, st') -> (0 <= x < range \/ x = 0)%Z) ->
  (0 <= min <= max)%Z -> (32 * max < two32)%Z -> normal_random draw min max st = Some (r, st') -> (min <= r <= max)%Z.
Proof. intro St. exact (@normal_random_range St). Qed.
Print Assumptions c77_normal_random_partial.
Example c77_instance : normal_random (fun range (st : nat) => Some ((Z.of_nat st mod range)%Z, S st)) 10 20 0 = Some (14%Z, 32).
Proof. vm_compute. reflexivity. Qed.
(** ... and leaves it otherwise *)
Theorem c77_normal_random_refuted :
  forall (St : Type) (draw : Z -> St -> option (Z * St)) (min max : Z) (st : St) (r : Z) (st' : St),
  (two32 <= 32 * min)%Z -> normal_random draw min max st = Some (r, st') -> (0 <= r < min)%Z.
Proof. intro St. exact (@normal_random_low St). Qed.
Print Assumptions c77_normal_random_refuted.
Example c77_low_case : (two32 <= 32 * 2 ^ 31)%Z /\ normal_random (fun range (st : unit) => Some (0%Z, st)) (2 ^ 31) (2 ^ 31 + 5) tt = Some (0%Z, tt).
Proof. split; [unfold two32; lia|reflexivity]. Qed.

(** C116: for any other words of the state, every 64 bit number is the next number for exactly one value of the second word (first word for the
    numbers behind sph_random_f64_bounded) *)
Theorem c116_numbers_uniform :
  forall a b c y, word64 y ->
  (exists x, word64 x /\ fst (random_u64 (a, x, b, c)) = y /\ forall x', word64 x' -> fst (random_u64 (a, x', b, c)) = y -> x' = x) /\
  (exists x, word64 x /\ fst (random_u64_plus (x, a, b, c)) = y /\ forall x', word64 x' -> fst (random_u64_plus (x', a, b, c)) = y -> x' = x).
Proof. intros a b c y H. split; [exact (u64_uniform a b c y H)|exact (plus_uniform a b c y H)]. Qed.
Print Assumptions c116_numbers_uniform.
(** C116: every fraction k / 2^53 is the next result of sph_random_f64 for exactly 2048 values of the second word *)
Theorem c116_fractions_uniform :
  forall a b c k, (0 <= k < 2 ^ 53)%Z ->
  exists l, length l = 2048 /\ NoDup l /\ forall x, word64 x -> In x l <-> (fst (random_f64 (a, x, b, c)) == inject_Z k * (1 # 2 ^ 53))%Q.
Proof. exact f64_uniform. Qed.
Print Assumptions c116_fractions_uniform.
(** C116: the results of sph_random_u32 are 32 bit numbers, and each of them is the next result for exactly 2^32 values of the second word, which [f] counts *)
Theorem c116_u32_uniform :
  (forall s, 0 <= fst (random_u32 s) < 2 ^ 32)%Z /\
  (forall a b c y, (0 <= y < 2 ^ 32)%Z ->
   exists f : Z -> Z,
   (forall i, (0 <= i < 2 ^ 32)%Z -> word64 (f i) /\ fst (random_u32 (a, f i, b, c)) = y) /\
   (forall i j, (0 <= i < 2 ^ 32)%Z -> (0 <= j < 2 ^ 32)%Z -> f i = f j -> i = j) /\
   (forall x, word64 x -> fst (random_u32 (a, x, b, c)) = y -> exists i, (0 <= i < 2 ^ 32)%Z /\ f i = x)).
Proof. split; [exact u32_range|exact u32_uniform]. Qed.
Print Assumptions c116_u32_uniform.
(** C116: four consecutive numbers determine the state *)
Theorem c116_state_determined :
  forall s t, valid_state s -> valid_state t -> fst (draws random_u64 4 s) = fst (draws random_u64 4 t) -> s = t.
Proof. exact state_determined. Qed.
Print Assumptions c116_state_determined.
(** C116: different seeds. Any number of calls after the creation, the next four numbers are not the same. *)
Theorem c116_seeds :
  forall (n : nat) (a b : Z), word64 a -> word64 b -> a <> b ->
  fst (draws random_u64 4 (snd (draws random_u64 n (random_state_new a)))) <> fst (draws random_u64 4 (snd (draws random_u64 n (random_state_new b)))).
Proof. exact seeds_later. Qed.
Print Assumptions c116_seeds.
(** C116: the same for sp_random_state_new *)
Theorem c116_sp_seeds :
  forall (n : nat) (a b : Z), word64 a -> word64 b -> a <> b ->
  fst (draws random_u64 4 (snd (draws random_u64 n (sp_random_state_new a)))) <> fst (draws random_u64 4 (snd (draws random_u64 n (sp_random_state_new b)))).
Proof. exact sp_seeds_later. Qed.
Print Assumptions c116_sp_seeds.
(** C116: no word of a new state is equal to another word of it, or to the word at the same place for another seed *)
Theorem c116_state_words :
  (forall seed, let '(a, b, c, d) := random_state_new seed in NoDup [a; b; c; d]) /\
  (forall x y, word64 x -> word64 y -> x <> y ->
   let '(a0, a1, a2, a3) := random_state_new x in let '(b0, b1, b2, b3) := random_state_new y in a0 <> b0 /\ a1 <> b1 /\ a2 <> b2 /\ a3 <> b3).
Proof. split; [exact words_differ|exact seeds_differ]. Qed.
Print Assumptions c116_state_words.
(** published test vectors of xoshiro256**, xoshiro256+ and the numbers of the seeding function *)
Example c116_instance :
  fst (draws random_u64 6 (1, 2, 3, 4)%Z) = [11520; 0; 1509978240; 1215971899390074240; 1216172134540287360; 607988272756665600]%Z /\
  fst (draws random_u64_plus 5 (1, 2, 3, 4)%Z) = [5; 211106232532999; 211106635186183; 9223759065350669058; 9250833439874351877]%Z /\
  random_state_new 1477776061723855037 = (1985237415132408290, 2979275885539914483, 13511426838097143398, 8488337342461049707)%Z /\
  word64 1477776061723855037 /\ valid_state (1, 2, 3, 4)%Z /\ word64 11520.
Proof. splits; try reflexivity; unfold valid_state, word64, two64; lia. Qed.
