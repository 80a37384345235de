(** Small numeric functions and strings: theorems *)
From Verif Require Import Base MiscModel MiscSpec MiscProofs UniProofs.
From Coq Require Import QArith Qround.
Open Scope nat_scope.

(** C56 *)
Theorem c56_expt : forall base exp : Z, (0 <= exp < two32)%Z -> time_expt base exp = Some ((base ^ exp) mod two32)%Z.
Proof. exact expt_correct. Qed.
Print Assumptions c56_expt.
Theorem c56_factorial : forall n : nat, time_factorial n = ((factorial n) mod two32)%Z.
Proof. exact factorial_correct. Qed.
Print Assumptions c56_factorial.
Theorem c56_counts :
  (forall n k, 0 <= n -> 0 <= k < two32 -> n ^ k < two32 -> 0 < n -> set_sequence_max n k = Some (n ^ k))%Z /\
  (forall n, 1 <= n <= 32 -> compositions_max n = Some (2 ^ (n - 1)))%Z.
Proof. exact counts_correct. Qed.
Print Assumptions c56_counts.
Example c56_instance :
  time_expt 3 13 = Some 1594323%Z /\ time_expt 10 10 = Some 1410065408%Z /\ time_factorial 13 = 1932053504%Z /\
  set_sequence_max 4 3 = Some 64%Z /\ compositions_max 5 = Some 16%Z.
Proof. repeat split; vm_compute; reflexivity. Qed.
(** C56 (partial): what the code computes for all sizes with k < n; it is the number of selections exactly if n - k is 1 or 2 (when n! can be represented) *)
Theorem c56_permutations_max_partial :
  forall n k : nat, k < n -> (Z.of_nat n < two32)%Z ->
  permutations_max (Z.of_nat n) (Z.of_nat k) = Some ((factorial n mod two32) / Z.of_nat (n - k))%Z /\
  ((factorial n < two32)%Z -> (permutations_max (Z.of_nat n) (Z.of_nat k) = Some (factorial n / factorial (n - k))%Z <-> n - k <= 2)).
Proof. exact permutations_max_formula. Qed.
Print Assumptions c56_permutations_max_partial.
Example c56_permutations_max_instance : permutations_max 5 4 = Some 120%Z /\ permutations_max 5 3 = Some 60%Z /\ permutations_max 5 2 = Some 40%Z /\ (factorial 5 / factorial 3 = 20)%Z.
Proof. repeat split. Qed.
(** C56: the number of selections of k from n in order is n! / (n - k)!; the code divides by n - k, also by zero *)
Theorem c56_permutations_max_refuted :
  (exists n k : nat, k <= n /\ (factorial n < two32)%Z /\
    permutations_max (Z.of_nat n) (Z.of_nat k) <> Some (factorial n / factorial (n - k))%Z) /\
  (forall n : nat, (Z.of_nat n < two32)%Z -> permutations_max (Z.of_nat n) (Z.of_nat n) = None).
Proof.
  split.
  - exists 5, 2. repeat split; try (repeat constructor). vm_compute. discriminate.
  - intros n H. unfold permutations_max. now rewrite Z.sub_diag.
Qed.
Print Assumptions c56_permutations_max_refuted.

(** C57 *)
Theorem c57_phase_bounded :
  forall current change cycle : Z, (0 < cycle)%Z -> exists p, phase current change cycle = Some p /\ (0 <= p < cycle)%Z.
Proof. exact phase_bound. Qed.
Print Assumptions c57_phase_bounded.
Theorem c57_phase_accumulates :
  forall cycle : Z, (0 < cycle)%Z -> forall (changes : list Z) (current : Z), (0 <= current < cycle)%Z ->
  Forall (fun c => 0 <= c /\ cycle + c <= two32)%Z changes ->
  phases current changes cycle = Some ((current + zsum changes) mod cycle)%Z.
Proof. exact phases_correct. Qed.
Print Assumptions c57_phase_accumulates.
Example c57_instance :
  Forall (fun c => 0 <= c /\ 100 + c <= two32)%Z [70; 250; 3]%Z /\ phases 40 [70; 250; 3]%Z 100 = Some 63%Z.
Proof. split; [|reflexivity]. repeat constructor; unfold two32; discriminate. Qed.
Theorem c57_phase_float :
  forall (current : Z) (change : Q) (cycle : Z), (0 < cycle)%Z -> (0 <= current)%Z -> (0 <= change)%Q ->
  (current + Qceiling change < two32)%Z ->
  phase_float current change cycle = Some ((current + Qceiling change) mod cycle)%Z.
Proof. exact phase_float_correct. Qed.
Print Assumptions c57_phase_float.
Example c57_phase_float_instance : phase_float 8 (5 # 2) 10 = Some 1%Z.
Proof. reflexivity. Qed.
(** C57: sp_wave reads the table at start + sum of frequencies modulo the table size and leaves the phase there.
    The amplitude factor of sample i is amp * amod[i], or amp * amp without amod. *)
Theorem c57_wave_phase :
  forall (V : Type) (add mul : V -> V -> V) (size : nat) (wvf : list V) (amp : V) (amod : option (list V))
    (frq : Z) (fmod : option (list Z)) (phs : option Z) (out : list V) (start : Z) (frequency : nat -> Z) (amplitude : nat -> V),
  0 < length wvf -> (Z.of_nat (length wvf) <= two32)%Z -> length out = size ->
  match phs with Some p => p | None => 0%Z end = start -> (0 <= start < Z.of_nat (length wvf))%Z ->
  (forall i, i < size -> optional_get fmod frq i = Some (frequency i)) ->
  (forall i, i < size -> optional_get amod amp i = Some (amplitude i)) ->
  (forall i : nat, (i < size)%nat -> 0 <= frequency i /\ Z.of_nat (length wvf) + frequency i <= two32)%Z ->
  exists out',
  wave V add mul size wvf (Z.of_nat (length wvf)) amp amod frq fmod phs out =
    Some (out', match phs with Some _ => Some (phase_at start frequency (Z.of_nat (length wvf)) size) | None => None end) /\
  length out' = size /\
  forall i o w, i < size -> nth_error out i = Some o -> nth_error wvf (Z.to_nat (phase_at start frequency (Z.of_nat (length wvf)) i)) = Some w ->
    nth_error out' i = Some (add o (mul (mul amp (amplitude i)) w)).
Proof. exact wave_correct. Qed.
Print Assumptions c57_wave_phase.
Example c57_wave_instance :
  wave Z Z.add Z.mul 4 [0;5;7;9]%Z 4 2%Z (Some [1;1;10;10]%Z) 3 None (Some 1%Z) [100;100;100;100]%Z = Some ([110;100;280;240]%Z, Some 1%Z).
Proof. reflexivity. Qed.
(** C73: without amplitude modulation the samples are the table values times amp: amp is applied twice *)
Theorem c73_wave_amplitude_refuted :
  exists (wvf out out' : list Z) (amp : Z),
  wave Z Z.add Z.mul 1 wvf (Z.of_nat (length wvf)) amp None 1%Z None None out = Some (out', None) /\
  exists w o, nth_error wvf 0 = Some w /\ nth_error out 0 = Some o /\ nth_error out' 0 <> Some (o + amp * w)%Z.
Proof. exists [1;0]%Z, [0]%Z, [9]%Z, 3%Z. split; [reflexivity|]. exists 1%Z, 0%Z. repeat split. discriminate. Qed.
Print Assumptions c73_wave_amplitude_refuted.

(** C58 *)
Theorem c58_triangle :
  forall t a b : Z, (0 <= t)%Z -> (0 <= a)%Z -> (0 <= b)%Z -> (0 < a + b < two32)%Z ->
  exists y, triangle t a b = Some y /\ (0 <= y <= 1)%Q /\
  ((t mod (a + b) < a)%Z -> (y * inject_Z a == inject_Z (t mod (a + b)))%Q) /\
  ((a <= t mod (a + b))%Z -> (y * inject_Z b == inject_Z (a + b - t mod (a + b)))%Q).
Proof. exact triangle_correct. Qed.
Print Assumptions c58_triangle.
Theorem c58_triangle_periodic :
  forall t a b : Z, (0 < a + b < two32)%Z -> triangle (t + (a + b)) a b = triangle t a b.
Proof. exact triangle_periodic. Qed.
Print Assumptions c58_triangle_periodic.
Theorem c58_square :
  forall t size : Z, (0 <= 2 * t < two32)%Z -> (0 < size)%Z -> (2 * size < two32)%Z ->
  square t size = Some (if 2 * (t mod size) <? size then -1 else 1)%Z.
Proof. exact square_correct. Qed.
Print Assumptions c58_square.
(** beyond 2^31 the doubled time wraps and the wave jumps *)
Theorem c58_square_wrap_refuted :
  (forall t size : Z, (two32 <= 2 * t < 2 * two32)%Z -> (0 < size)%Z -> (2 * size < two32)%Z ->
    square t size = Some (if 2 * ((t - two32 / 2) mod size) <? size then -1 else 1)%Z) /\
  exists t size : Z, (0 <= t < two32)%Z /\ (0 < size)%Z /\ square t size <> Some (if 2 * (t mod size) <? size then -1 else 1)%Z.
Proof. split; [exact square_wraps|]. exists 2147483648%Z, 3%Z. repeat split; try reflexivity; vm_compute; discriminate. Qed.
Print Assumptions c58_square_wrap_refuted.
(** full volume for the nearer half, linear to zero for the other; stated for the two channels that exist
    (sp_channel_count_limit is 2) *)
Theorem c58_pan :
  forall value : Q,
  (0 <= pan_to_amp value 0 <= 1)%Q /\ (0 <= pan_to_amp value 1 <= 1)%Q /\
  (value <= 1 # 2 -> pan_to_amp value 0 == 1)%Q /\ (1 # 2 <= value <= 1 -> pan_to_amp value 0 == 2 - 2 * value)%Q /\ (1 <= value -> pan_to_amp value 0 == 0)%Q /\
  (value <= 0 -> pan_to_amp value 1 == 0)%Q /\ (0 <= value <= 1 # 2 -> pan_to_amp value 1 == 2 * value)%Q /\ (1 # 2 <= value -> pan_to_amp value 1 == 1)%Q.
Proof. exact pan_correct. Qed.
Print Assumptions c58_pan.
Theorem c58_pan_monotone :
  forall x y : Q, (x <= y)%Q -> (pan_to_amp y 0 <= pan_to_amp x 0)%Q /\ (pan_to_amp x 1 <= pan_to_amp y 1)%Q.
Proof. exact pan_monotone. Qed.
Print Assumptions c58_pan_monotone.
(** for further channels, which the comment of sp_pan_to_amp describes, the result leaves the range *)
Theorem c58_pan_third_channel_refuted : exists value channel, (1 < channel)%Z /\ ~ (0 <= pan_to_amp value channel <= 1)%Q.
Proof. exists (5 # 2)%Q, 3%Z. split; [reflexivity|]. intros [_ H]. vm_compute in H. contradiction. Qed.
Print Assumptions c58_pan_third_channel_refuted.
Example c58_instance :
  (match triangle 3 4 2 with Some y => y == 3 # 4 | None => False end)%Q /\ (match triangle 11 4 2 with Some y => y == 1 # 2 | None => False end)%Q /\
  square 3 8 = Some (-1)%Z /\ square 12 8 = Some 1%Z /\ (pan_to_amp (1 # 4) 1 == 1 # 2)%Q.
Proof. repeat split. Qed.

(** C60: the result lies between a and the next multiple above, which is reached with amount 1 *)
Theorem c60_harmonize_upwards_partial :
  forall (a base : Z) (amount : Q), (0 <= a)%Z -> (0 < base)%Z -> (a + base < two32)%Z -> (0 <= amount <= 1)%Q ->
  exists z, harmonize a base amount = Some z /\ (a <= z <= (a + base - 1) / base * base)%Z /\
  ((amount == 0)%Q -> z = a) /\ ((amount == 1)%Q -> z = (a + base - 1) / base * base)%Z.
Proof. exact harmonize_correct. Qed.
Print Assumptions c60_harmonize_upwards_partial.
Example c60_instance : harmonize 17 10 (1 # 2) = Some 18%Z /\ harmonize 17 10 1 = Some 20%Z.
Proof. split; reflexivity. Qed.
Theorem c60_harmonize_nearest_refuted :
  forall a base : Z, (0 <= a)%Z -> (0 < base)%Z -> (a + base < two32)%Z -> (0 < a mod base)%Z -> (2 * (a mod base) < base)%Z ->
  exists z near : Z, harmonize a base 1 = Some z /\ (base | near)%Z /\ (Z.abs (near - a) < Z.abs (z - a))%Z.
Proof. exact harmonize_not_nearest. Qed.
Print Assumptions c60_harmonize_nearest_refuted.
Example c60_nearest_case : (0 < 11 mod 10)%Z /\ (2 * (11 mod 10) < 10)%Z /\ harmonize 11 10 1 = Some 20%Z.
Proof. repeat split. Qed.

(** C72: the number is not rounded at all *)
Theorem c72_round_to_multiple_refuted :
  forall a base : Z, (0 < a < two32)%Z -> (0 < base)%Z -> ~ (base | a)%Z -> exists z, round_to_multiple a base = Some z /\ ~ (base | z)%Z.
Proof. exact round_to_multiple_not. Qed.
Print Assumptions c72_round_to_multiple_refuted.
Example c72_not_multiple : ~ (5 | 7)%Z /\ round_to_multiple 7 5 = Some 7%Z.
Proof. split; [intros [k Hk]; lia|reflexivity]. Qed.
Theorem c72_round_to_multiple_is_identity_partial :
  forall a base : Z, (0 < a)%Z -> (a < two32)%Z -> (0 < base)%Z -> round_to_multiple a base = Some a.
Proof. exact round_to_multiple_is_identity. Qed.
Print Assumptions c72_round_to_multiple_is_identity_partial.
(** zero is a multiple of every base and still becomes the base *)
Theorem c72_zero_refuted : forall base : Z, (0 < base)%Z -> exists z, round_to_multiple 0 base = Some z /\ z = base /\ (Z.abs (0 - 0) < Z.abs (z - 0))%Z.
Proof. intros base H. exists base. split; [reflexivity|]. split; [reflexivity|]. lia. Qed.
Print Assumptions c72_zero_refuted.
Example c72_instance : round_to_multiple 12 5 = Some 12%Z /\ round_to_multiple 0 5 = Some 5%Z.
Proof. split; reflexivity. Qed.

(** C64 *)
Theorem c64_modulo_match :
  forall (index : Z) (divisors : list Z), divisors <> [] -> Forall (fun d => d <> 0%Z) divisors ->
  exists k, modulo_match index divisors = Some k /\ k < length divisors /\
  ((exists d, nth_error divisors k = Some d /\ (d | index)%Z /\ forall j e, j < k -> nth_error divisors j = Some e -> ~ (e | index)%Z) \/
   (k = length divisors - 1 /\ Forall (fun d => ~ (d | index)%Z) divisors)).
Proof. exact modulo_match_correct. Qed.
Print Assumptions c64_modulo_match.
Example c64_instance : modulo_match 4 [3;2;5]%Z = Some 1 /\ modulo_match 7 [3;2;5]%Z = Some 2.
Proof. split; reflexivity. Qed.

(** C65 *)
Theorem c65_strings :
  forall junk : nat -> list Z, (forall n, length (junk n) = n) ->
  (forall ma a mb b, holds_string ma a -> holds_string mb b -> string_append junk ma mb = Some (a ++ b ++ [0%Z])) /\
  (forall ma a, holds_string ma a -> string_clone junk ma = Some (a ++ [0%Z])) /\
  (forall mems strings md d, mems <> [] -> Forall2 holds_string mems strings -> holds_string md d ->
    string_join junk mems md = Some (Some (joined d strings ++ [0%Z], length (joined d strings)))).
Proof. intros junk H. splits; intros; [now apply append_correct|now apply clone_correct|now apply join_correct]. Qed.
Print Assumptions c65_strings.
Example c65_instance :
  let junk n := repeat 7%Z n in
  holds_string [104;105;0;9]%Z [104;105]%Z /\
  string_append junk [104;105;0;9]%Z [106;0]%Z = Some [104;105;106;0]%Z /\
  string_join junk [[104;0];[105;0];[106;0]]%Z [44;32;0]%Z = Some (Some ([104;44;32;105;44;32;106;0]%Z, 7)).
Proof. cbv zeta. split; [|split; reflexivity]. split; [|exists [9]%Z; reflexivity]. constructor; [discriminate|]. constructor; [discriminate|]. constructor. Qed.
(** C65: ensure_trailing_slash writes the terminating zero to the first byte, so the new string is empty, and leaves the
    last byte unset *)
Theorem c65_trailing_slash_refuted :
  exists (junk : nat -> list Z) (a bytes r : list Z), (forall n, length (junk n) = n) /\ holds_string a bytes /\
  ensure_trailing_slash junk a = Some (2%Z, r) /\ ~ holds_string r (bytes ++ [47%Z]) /\ holds_string r [].
Proof.
  exists (fun n => repeat 7%Z n), [104;105;0]%Z, [104;105]%Z, [0;105;47;7]%Z. splits.
  - intro n. apply repeat_length.
  - split; [|exists []; reflexivity]. constructor; [discriminate|]. constructor; [discriminate|]. constructor.
  - reflexivity.
  - intros [_ [rest E]]. discriminate.
  - split; [constructor|]. exists [105;47;7]%Z. reflexivity.
Qed.
Print Assumptions c65_trailing_slash_refuted.
(** and a string that is empty or ends with a slash is returned as it is *)
Theorem c65_trailing_slash_kept_partial :
  forall (junk : nat -> list Z) (a bytes : list Z), holds_string a bytes -> bytes = [] \/ (exists b, bytes = b ++ [47%Z]) ->
  ensure_trailing_slash junk a = Some (0%Z, a).
Proof.
  intros junk a bytes [HF [rest ->]] H. unfold ensure_trailing_slash. rewrite strlen_app by assumption. cbn [bind].
  destruct H as [->|[b ->]]; [reflexivity|]. rewrite app_length. cbn [length].
  destruct (Nat.eqb_spec (length b + 1) 0); [lia|]. unfold aget. rewrite <- app_assoc. rewrite nth_error_app2 by lia.
  replace (length b + 1 - 1 - length b) with 0 by lia. reflexivity.
Qed.
Print Assumptions c65_trailing_slash_kept_partial.
