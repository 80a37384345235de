(** Scaling, limits, interpolation, sums, bytes and interleaving: theorems *)
From Verif Require Import Base MiscModel MiscSpec ArrModel ArrSpec ScaleModel ScaleSpec ScaleProofs Scale2Proofs Scale3Proofs Scale4Proofs Scale5Proofs UniProofs.
From Coq Require Import QArith Qround Qminmax Qabs.
Open Scope nat_scope.

(** C66: blend and mask *)
Theorem c66_mask :
  forall (a b : list Z) (coefficients : list Q) (size : nat) (out : list Z),
  size <= length a -> size <= length b -> size <= length coefficients -> size <= length out ->
  Forall word a -> Forall word b -> Forall (fun t => 0 <= t <= 1)%Q coefficients ->
  exists out', times_mask a b coefficients size out = Some out' /\ length out' = length out /\
  (forall i, size <= i -> nth_error out' i = nth_error out i) /\
  (forall i x y t, i < size -> nth_error a i = Some x -> nth_error b i = Some y -> nth_error coefficients i = Some t ->
    exists z, nth_error out' i = Some z /\ faded x y t z).
Proof. exact mask_correct. Qed.
Print Assumptions c66_mask.
Theorem c66_blend :
  forall (a b : list Z) (fraction : Q) (size : nat) (out : list Z),
  size <= length a -> size <= length b -> size <= length out -> Forall word a -> Forall word b -> (0 <= fraction <= 1)%Q ->
  exists out', times_blend a b fraction size out = Some out' /\ length out' = length out /\
  (forall i, size <= i -> nth_error out' i = nth_error out i) /\
  (forall i x y, i < size -> nth_error a i = Some x -> nth_error b i = Some y -> exists z, nth_error out' i = Some z /\ faded x y fraction z).
Proof.
  intros a b f size out La Lb Lo Fa Fb Hf. rewrite blend_is_mask.
  destruct (mask_correct a b (repeat f size) size out La Lb) as [o [E [L [K G]]]]; auto.
  - rewrite repeat_length. auto.
  - apply Forall_forall. intros t Ht. apply repeat_spec in Ht. now subst.
  - exists o. splits; auto. intros i x y Hi Hx Hy. apply (G i x y f); auto. now apply nth_error_repeat.
Qed.
Print Assumptions c66_blend.
Theorem c66_samples_blend :
  forall (a b : list Q) (fraction : Q) (size : nat) (out : list Q),
  size <= length a -> size <= length b -> size <= length out ->
  exists out', samples_blend a b fraction size out = Some out' /\ length out' = length out /\
  (forall i, size <= i -> nth_error out' i = nth_error out i) /\
  (forall i x y, i < size -> nth_error a i = Some x -> nth_error b i = Some y ->
    exists z, nth_error out' i = Some z /\ (z == x + fraction * (y - x))%Q).
Proof. exact samples_blend_correct. Qed.
Print Assumptions c66_samples_blend.
Theorem c66_scale :
  forall (input : list Z) (count factor : nat) (out : list Z),
  count <= length input -> 1 <= count -> factor * (count - 1) <= length out ->
  Forall (fun x => 0 <= x /\ x * Z.of_nat factor < two32)%Z input ->
  exists out', times_scale input count factor out = Some out' /\ length out' = length out /\
  (forall j, factor * (count - 1) <= j -> nth_error out' j = nth_error out j) /\
  (forall i k x y, S i < count -> k < factor -> nth_error input i = Some x -> nth_error input (S i) = Some y ->
    nth_error out' (factor * i + k) = Some ((Z.of_nat factor - Z.of_nat k) * x + Z.of_nat k * y)%Z).
Proof. exact scale_correct. Qed.
Print Assumptions c66_scale.
Example c66_instance :
  times_mask [10;10;10]%Z [20;20;20]%Z [0;1#4;1]%Q 3 [0;0;0;7]%Z = Some [10;13;20;7]%Z /\
  times_blend [10;0]%Z [20;5]%Z (1#2)%Q 2 [0;0]%Z = Some [15;3]%Z /\
  times_scale [1;3;2]%Z 3 3 [0;0;0;0;0;0;9]%Z = Some [3;5;7;9;8;7;9]%Z.
Proof. splits; reflexivity. Qed.

(** C71: the fade of sp_times_make_seamless_right is only one element long: all but the last are those of the first array *)
Theorem c71_seamless_right_partial :
  forall (a : list Z) (b0 : Z) (b out : list Z),
  0 < length a -> 1 <= length b -> length a <= length out -> Forall word a -> Forall word (b0 :: b) ->
  exists out', seamless_right a (b0 :: b) out = Some out' /\
  firstn (length a) out' = firstn (length a - 1) a ++ [b0] /\ skipn (length a) out' = skipn (length a) out.
Proof. exact seamless_right_correct. Qed.
Print Assumptions c71_seamless_right_partial.
Example c71_instance : seamless_right [10;10;10;10]%Z [20;20;20;20]%Z [0;0;0;0]%Z = Some [10;10;10;20]%Z.
Proof. reflexivity. Qed.
Theorem c71_seamless_right_linear_refuted :
  exists a b out out' z, seamless_right a b out = Some out' /\ length a = 2 /\ length b = 4 /\ nth_error out' 0 = Some z /\ ~ rounded (15)%Q z /\
  nth_error a 0 = Some 10%Z /\ nth_error b 1 = Some 20%Z.
Proof.
  exists [10;10]%Z, [20;20;20;20]%Z, [0;0]%Z, [10;20]%Z, 10%Z. splits; try reflexivity. unfold rounded. intros [H _]. discriminate H.
Qed.
Print Assumptions c71_seamless_right_linear_refuted.
(** C71: sp_times_make_seamless_left always reads behind the first array *)
Theorem c71_seamless_left_out_of_bounds_refuted :
  forall a b out : list Z, 2 <= length a -> 1 <= length b -> seamless_left a b out = None.
Proof. exact seamless_left_oob. Qed.
Print Assumptions c71_seamless_left_out_of_bounds_refuted.
Example c71_left_instance : seamless_left [1;2;3;4]%Z [5;6;7]%Z [0;0;0]%Z = None.
Proof. reflexivity. Qed.

(** C61 *)
Theorem c61_sum_exact :
  forall (l : list Q) (count : nat), 1 <= count <= length l ->
  exists s, f64_sum l count = Some s /\ (s == qsum (firstn count l))%Q.
Proof. exact f64_sum_correct. Qed.
Print Assumptions c61_sum_exact.
Example c61_instance : option_map Qred (f64_sum [1;2;1#2;8]%Q 3) = Some (7#2)%Q /\ 1 <= 3 <= length [1;2;1#2;8]%Q.
Proof. split; [reflexivity|cbn; lia]. Qed.

(** C33: sp_times_scale_sum in place: relative sizes are kept up to rounding; the sum differs from the target by at most half
    of the count, and not at all if the target is a multiple of the sum *)
Theorem c33_times_scale_sum_partial :
  forall (l : list Z) (n : nat) (sum : Z), n <= length l -> Forall word (firstn n l) -> word sum ->
  (0 < zsum (firstn n l) < two32)%Z ->
  exists l', times_scale_sum l n sum l = Some (l' ++ skipn n l) /\ length l' = n /\
  Forall2 (fun x y => rounded (inject_Z x * inject_Z sum / inject_Z (zsum (firstn n l)))%Q y) (firstn n l) l' /\
  (Qabs (inject_Z (zsum l') - inject_Z sum) <= inject_Z (Z.of_nat n) / 2)%Q /\
  ((zsum (firstn n l) | sum)%Z -> zsum l' = sum).
Proof. exact scale_sum_error. Qed.
Print Assumptions c33_times_scale_sum_partial.
Example c33_times_scale_sum_instance : times_scale_sum [1;2;3]%Z 3 12 [1;2;3]%Z = Some [2;4;6]%Z /\ (zsum [1;2;3]%Z | 12)%Z.
Proof. split; [reflexivity|exists 2%Z; reflexivity]. Qed.
Theorem c33_times_scale_sum_refuted :
  forall (c : Z) (n : nat) (sum : Z) (rest : list Z), 0 < n -> (0 < c)%Z -> (Z.of_nat n * c < two32)%Z -> word sum -> ~ (Z.of_nat n | sum)%Z ->
  exists l', times_scale_sum (repeat c n ++ rest) n sum (repeat c n ++ rest) = Some (l' ++ rest) /\ length l' = n /\ zsum l' <> sum.
Proof. exact scale_sum_equal. Qed.
Print Assumptions c33_times_scale_sum_refuted.
Example c33_times_scale_sum_refuted_instance : times_scale_sum [1;1;7]%Z 2 3 [1;1;7]%Z = Some [2;2;7]%Z /\ word 3%Z /\ ~ (2 | 3)%Z.
Proof. split; [reflexivity|]. split; [split; reflexivity || discriminate|]. intros [k h]. lia. Qed.
(** C33: with separate arrays the previous contents of out are scaled, not the input *)
Theorem c33_times_scale_sum_separate_refuted :
  forall (l : list Z) (n : nat) (sum : Z) (out : list Z), n <= length l -> n <= length out -> (0 < zsum (firstn n l) < two32)%Z -> Forall (fun x => x = 0%Z) (firstn n out) -> sum <> 0%Z ->
  times_scale_sum l n sum out = Some out /\ zsum (firstn n out) <> sum.
Proof. exact scale_sum_silent. Qed.
Print Assumptions c33_times_scale_sum_separate_refuted.
Example c33_times_scale_sum_separate_instance : times_scale_sum [1;1]%Z 2 4 [0;0;5]%Z = Some [0;0;5]%Z /\ (0 < zsum [1;1] < two32)%Z.
Proof. split; [reflexivity|]. split; reflexivity. Qed.
(** C33: sp_times_scale_y when the target is a multiple of the maximum *)
Theorem c33_times_scale_y_partial :
  forall (l : list Z) (n : nat) (target k : Z), n <= length l -> Forall word (firstn n l) -> word target ->
  (0 < zmax (firstn n l))%Z -> target = (k * zmax (firstn n l))%Z ->
  times_scale_y l n target = Some (map (fun x => x * k)%Z (firstn n l) ++ skipn n l) /\
  zmax (map (fun x => x * k)%Z (firstn n l)) = target.
Proof. exact times_scale_y_correct. Qed.
Print Assumptions c33_times_scale_y_partial.
Example c33_times_scale_y_instance : times_scale_y [1;5;2;9]%Z 3 20 = Some [4;20;8;9]%Z /\ (20 = 4 * zmax [1;5;2])%Z.
Proof. split; reflexivity. Qed.
Theorem c33_times_scale_y_refuted :
  forall (l : list Z) (n : nat) (target : Z), n <= length l -> Forall word (firstn n l) -> word target -> (0 < zmax (firstn n l))%Z -> ~ (zmax (firstn n l) | target)%Z ->
  exists l', times_scale_y l n target = Some (l' ++ skipn n l) /\ length l' = n /\ (zmax l' < target)%Z.
Proof. exact scale_y_not_multiple. Qed.
Print Assumptions c33_times_scale_y_refuted.
Example c33_times_scale_y_refuted_instance : times_scale_y [2;1;9]%Z 2 3 = Some [2;1;9]%Z /\ Forall word [2;1]%Z /\ ~ (2 | 3)%Z.
Proof. split; [reflexivity|]. split; [repeat (apply Forall_cons; [split; reflexivity || discriminate|]); apply Forall_nil|]. intros [k h]. lia. Qed.
(** C33: sp_samples_scale_y multiplies by count / floor(maximum) and does not use the target *)
Theorem c33_samples_scale_y_partial :
  forall (l : list Q) (n : nat) (target : Q), n <= length l -> Forall (fun x => Qabs x < inject_Z two32)%Q (firstn n l) ->
  (0 < zmax (map (fun x => Qfloor (Qabs x)) (firstn n l)))%Z ->
  samples_scale_y l n target =
  Some (map (fun x => x * (inject_Z (Z.of_nat n) / inject_Z (zmax (map (fun x => Qfloor (Qabs x)) (firstn n l)))))%Q (firstn n l) ++ skipn n l).
Proof. exact samples_scale_y_factor. Qed.
Print Assumptions c33_samples_scale_y_partial.
Theorem c33_samples_scale_y_refuted :
  forall (l : list Q) (n : nat) (target other : Q) (l' : list Q), ~ (target == other)%Q -> samples_scale_y l n target = Some l' -> samples_scale_y l n other = Some l'.
Proof. intros l n target other l' _ h. exact h. Qed.
Print Assumptions c33_samples_scale_y_refuted.
Example c33_samples_scale_y_refuted_instance : option_map (map Qred) (samples_scale_y [1]%Q 1 5%Q) = Some [1]%Q /\ option_map (map Qred) (samples_scale_y [1]%Q 1 7%Q) = Some [1]%Q.
Proof. split; reflexivity. Qed.
(** C33: sp_samples_scale_sum (the result replaces the input, out is not used) *)
Theorem c33_samples_scale_sum :
  forall (l : list Q) (n : nat) (target : Q), 1 <= n <= length l -> ~ (qsum (firstn n l) == 0)%Q ->
  exists factor, samples_scale_sum l n target = Some (map (fun x => x * factor)%Q (firstn n l) ++ skipn n l) /\
  (qsum (map (fun x => x * factor)%Q (firstn n l)) == target)%Q.
Proof. exact samples_scale_sum_correct. Qed.
Print Assumptions c33_samples_scale_sum.
(** C33: sp_samples_set_gain multiplies by amp / M where M is the integer part of the largest absolute value *)
Theorem c33_set_gain_partial :
  forall (l : list Q) (n : nat) (amp : Q), n <= length l -> Forall (fun x => Qabs x < inject_Z two32)%Q (firstn n l) -> ~ (amp == 0)%Q ->
  (0 < zmax (map (fun x => Qfloor (Qabs x)) (firstn n l)))%Z ->
  exists factor, samples_set_gain l n amp = Some (map (fun x => x * factor)%Q (firstn n l) ++ skipn n l) /\
  (factor * inject_Z (zmax (map (fun x => Qfloor (Qabs x)) (firstn n l))) == amp)%Q.
Proof. exact set_gain_correct. Qed.
Print Assumptions c33_set_gain_partial.
Example c33_samples_instance :
  samples_scale_sum [1;2;5]%Q 2 6 = Some [1 * (6 / 3); 2 * (6 / 3); 5]%Q /\ ~ (qsum [1;2] == 0)%Q /\
  zmax (map (fun x => Qfloor (Qabs x)) [-7#2; 1]%Q) = 3%Z /\
  option_map (map Qred) (samples_set_gain [-7#2; 1]%Q 2 6) = Some [-7#1; 2]%Q /\
  option_map (map Qred) (samples_scale_y [-7#2; 1]%Q 2 9) = Some [-7#3; 2#3]%Q.
Proof. splits; try reflexivity. discriminate. Qed.
(** C33: samples between -1 and 1, the usual range, are never changed by sp_samples_set_gain *)
Theorem c33_set_gain_refuted :
  forall (l : list Q) (n : nat) (amp : Q), n <= length l -> Forall (fun x => Qabs x < 1)%Q (firstn n l) -> (1 <= amp)%Q -> samples_set_gain l n amp = Some l /\ Forall (fun x => Qabs x < amp)%Q (firstn n l).
Proof. exact gain_below_one. Qed.
Print Assumptions c33_set_gain_refuted.
Example c33_set_gain_refuted_instance : samples_set_gain [1#2; -1#3]%Q 2 2%Q = Some [1#2; -1#3]%Q /\ Forall (fun x => Qabs x < 1)%Q [1#2; -1#3]%Q.
Proof. split; [reflexivity|]. repeat constructor. Qed.
Theorem c33_set_gain_no_change :
  forall (l : list Q) (n : nat) (amp : Q), n <= length l -> Forall (fun x => Qabs x < inject_Z two32)%Q (firstn n l) ->
  ((amp == 0)%Q \/ zmax (map (fun x => Qfloor (Qabs x)) (firstn n l)) = 0%Z) -> samples_set_gain l n amp = Some l.
Proof. exact set_gain_unchanged. Qed.
Print Assumptions c33_set_gain_no_change.

(** C33: the gain of a reference. As with sp_samples_set_gain, maxima are rounded down to integers *)
Theorem c33_unity_gain_partial :
  forall (l r : list Q) (n : nat), n <= length l -> n <= length r -> Forall (fun x => Qabs x < inject_Z two32)%Q (firstn n l) -> Forall (fun x => Qabs x < inject_Z two32)%Q (firstn n r) ->
  (0 < zmax (map (fun x => Qfloor (Qabs x)) (firstn n l)))%Z -> (0 < zmax (map (fun x => Qfloor (Qabs x)) (firstn n r)))%Z ->
  exists factor, samples_set_unity_gain l r n = Some (map (fun x => x * factor)%Q (firstn n l) ++ skipn n l) /\
  (factor * inject_Z (zmax (map (fun x => Qfloor (Qabs x)) (firstn n l))) == inject_Z (zmax (map (fun x => Qfloor (Qabs x)) (firstn n r))))%Q.
Proof. exact unity_gain_correct. Qed.
Print Assumptions c33_unity_gain_partial.
(** nothing is changed if one of the arrays has only samples between -1 and 1, what is the usual range *)
Theorem c33_unity_gain_refuted :
  forall (l r : list Q) (n : nat), n <= length l -> n <= length r -> Forall (fun x => Qabs x < inject_Z two32)%Q (firstn n l) -> Forall (fun x => Qabs x < inject_Z two32)%Q (firstn n r) ->
  zmax (map (fun x => Qfloor (Qabs x)) (firstn n l)) = 0%Z \/ zmax (map (fun x => Qfloor (Qabs x)) (firstn n r)) = 0%Z -> samples_set_unity_gain l r n = Some l.
Proof. exact unity_gain_unchanged. Qed.
Print Assumptions c33_unity_gain_refuted.
Example c33_unity_instance :
  option_map (map Qred) (samples_set_unity_gain [-7#2; 1]%Q [6; 0]%Q 2) = Some [-7#1; 2]%Q /\ samples_set_unity_gain [1#4]%Q [1#2]%Q 1 = Some [1#4]%Q /\
  zmax (map (fun x => Qfloor (Qabs x)) [1#4]%Q) = 0%Z.
Proof. splits; reflexivity. Qed.

(** C34 *)
Theorem c34_samples_limit :
  forall (l : list Q) (n : nat) (limit : Q), n <= length l ->
  exists l', samples_limit l n limit = Some (l' ++ skipn n l) /\
  Forall2 (fun x y => (y <= limit)%Q /\ ((x <= limit)%Q -> y = x) /\ ((limit < x)%Q -> y = limit)) (firstn n l) l' /\
  samples_limit (l' ++ skipn n l) n limit = Some (l' ++ skipn n l).
Proof.
  intros l n limit H. rewrite samples_limit_correct by exact H. eexists. split; [reflexivity|]. set (f := fun x => if MiscModel.Qlt_bool limit x then limit else x).
  assert (S : forall x, (f x <= limit)%Q /\ ((x <= limit)%Q -> f x = x) /\ ((limit < x)%Q -> f x = limit)).
  { intro x. unfold f. destruct (Qlt_bool limit x) eqn:B; [apply MiscProofs.Qlt_bool_iff in B|apply MiscProofs.Qlt_bool_false in B]; splits; auto.
    - apply Qle_refl.
    - intro X. exfalso. eapply Qlt_not_le; eauto.
    - intro X. exfalso. eapply Qlt_not_le; eauto. }
  assert (L : length (map f (firstn n l)) = n) by (rewrite map_length, firstn_length; lia). split.
  - clear -S. induction (firstn n l); cbn; constructor; auto.
  - rewrite samples_limit_correct by (rewrite app_length; lia). rewrite firstn_app, L, Nat.sub_diag, firstn_O, app_nil_r, firstn_all2 by lia.
    rewrite skipn_app, L, Nat.sub_diag, skipn_O. rewrite (skipn_all2 (map f (firstn n l))) by lia. cbn [app]. f_equal. f_equal. rewrite map_map. apply map_ext. intro x. fold (f (f x)). apply S. apply S.
Qed.
Print Assumptions c34_samples_limit.
Theorem c34_samples_limit_abs :
  forall (l : list Q) (n : nat) (limit : Q) (out : list Q), n <= length l -> n <= length out -> (0 <= limit)%Q ->
  exists l', samples_limit_abs l n limit out = Some (l' ++ skipn n out) /\
  Forall2 (fun x y => (Qabs y <= limit)%Q /\ ((Qabs x <= limit)%Q -> y = x) /\ ((limit < x)%Q -> y == limit)%Q /\ ((x < - limit)%Q -> y == - limit)%Q) (firstn n l) l' /\
  samples_limit_abs (l' ++ skipn n out) n limit (l' ++ skipn n out) = Some (l' ++ skipn n out).
Proof.
  intros l n limit out H HO H0. rewrite limit_abs_correct by auto. eexists. split; [reflexivity|].
  assert (L : length (map (limited limit) (firstn n l)) = n) by (rewrite map_length, firstn_length; lia). split.
  - clear L. generalize (firstn n l). intro k. induction k as [|x k IH]; cbn [map]; constructor; auto. destruct (limited_spec limit x H0) as [A [B [C [D _]]]]. splits; auto. intro X. now rewrite (C X).
  - rewrite limit_abs_correct by (rewrite app_length; lia). rewrite firstn_app, L, Nat.sub_diag, firstn_O, app_nil_r, firstn_all2 by lia.
    rewrite skipn_app, L, Nat.sub_diag, skipn_O. rewrite (skipn_all2 (map (limited limit) (firstn n l))) by lia. cbn [app]. f_equal. f_equal. rewrite map_map. apply map_ext. intro x. apply limited_spec. exact H0.
Qed.
Print Assumptions c34_samples_limit_abs.
Example c34_samples_instance :
  samples_limit [1;5;-9#1]%Q 3 2 = Some [1;2;-9#1]%Q /\ samples_limit_abs [1;5;-9#1]%Q 3 2 [0;0;0]%Q = Some [1;2;-2#1]%Q.
Proof. split; reflexivity. Qed.
(** C34: a negative limit, which the comment allows, changes values that are within it *)
Theorem c34_negative_limit_refuted :
  forall x limit, (limit < 0)%Q -> (0 <= x)%Q -> samples_limit_abs [x] 1 limit [x] = Some [limit].
Proof. exact limit_abs_negative. Qed.
Print Assumptions c34_negative_limit_refuted.
Example c34_negative_case : samples_limit_abs [0]%Q 1 (-1#1)%Q [0]%Q = Some [-1#1]%Q /\ (Qabs 0 <= Qabs (-1#1))%Q.
Proof. split; [reflexivity|discriminate]. Qed.

(** C35 *)
Theorem c35_u64_from_array :
  forall (a : list Z) (n : nat), 1 <= n <= 8 -> n <= length a -> Forall byte a -> u64_from_array a n = Some (little_endian (firstn n a)).
Proof. exact u64_from_array_correct. Qed.
Print Assumptions c35_u64_from_array.
Theorem c35_injective :
  forall (a b : list Z) (n : nat), 1 <= n <= 8 -> n <= length a -> n <= length b -> Forall byte a -> Forall byte b ->
  u64_from_array a n = u64_from_array b n -> firstn n a = firstn n b.
Proof.
  intros a b n Hn La Lb Fa Fb. rewrite !u64_from_array_correct by auto. intro E. injection E as E.
  apply little_endian_inj; auto; try (now apply firstn_Forall). rewrite !firstn_length. lia.
Qed.
Print Assumptions c35_injective.
Theorem c35_bound :
  forall (a : list Z) (n : nat), 1 <= n <= 8 -> n <= length a -> Forall byte a ->
  exists v, u64_from_array a n = Some v /\ (0 <= v < 256 ^ Z.of_nat n)%Z.
Proof.
  intros a n Hn La Fa. rewrite u64_from_array_correct by auto. eexists. split; [reflexivity|].
  pose proof (little_endian_bound (firstn n a) (firstn_Forall _ _ _ Fa)) as B. rewrite firstn_length, Nat.min_l in B by lia. exact B.
Qed.
Print Assumptions c35_bound.
Example c35_instance : Forall byte [1;2;3;4;5;6;7]%Z /\ u64_from_array [1;2;3;4;5;6;7]%Z 7 = Some 0x07060504030201%Z.
Proof. split; [repeat constructor; discriminate|reflexivity]. Qed.

(** C36 *)
Theorem c36_interleave :
  forall (V : Type) (a : list (list V)) (b : list V) (n : nat),
  (forall c ch, nth_error a c = Some ch -> n <= length ch) -> (Z.of_nat (n * length a) < two32)%Z -> (Z.of_nat n < two32)%Z -> n * length a <= length b ->
  exists b', interleave V a b n (length a) = Some b' /\ length b' = length b /\ interleaved a b' n /\ skipn (n * length a) b' = skipn (n * length a) b.
Proof. exact interleave_correct. Qed.
Print Assumptions c36_interleave.
Theorem c36_deinterleave :
  forall (V : Type) (a : list (list V)) (b : list V) (n : nat),
  (forall c ch, nth_error a c = Some ch -> n <= length ch) -> (Z.of_nat (n * length a) < two32)%Z -> (Z.of_nat n < two32)%Z -> n * length a <= length b ->
  exists a', deinterleave V a b n (length a) = Some a' /\ length a' = length a /\ interleaved a' b n /\
  (forall c ch, nth_error a c = Some ch -> exists ch', nth_error a' c = Some ch' /\ length ch' = length ch /\ skipn n ch' = skipn n ch).
Proof. exact deinterleave_correct. Qed.
Print Assumptions c36_deinterleave.
Theorem c36_inverse :
  forall (V : Type) (a : list (list V)) (b : list V) (n : nat) (out : list (list V)),
  (forall c ch, nth_error a c = Some ch -> length ch = n) -> length out = length a -> (forall c ch, nth_error out c = Some ch -> length ch = n) ->
  (Z.of_nat (n * length a) < two32)%Z -> (Z.of_nat n < two32)%Z -> n * length a <= length b ->
  exists b', interleave V a b n (length a) = Some b' /\ deinterleave V out b' n (length a) = Some a.
Proof. exact interleave_then_deinterleave. Qed.
Print Assumptions c36_inverse.
Theorem c36_inverse_2 :
  forall (V : Type) (a : list (list V)) (b : list V) (n : nat) (out : list V) (C : nat),
  length a = C -> 0 < C -> (forall c ch, nth_error a c = Some ch -> n <= length ch) ->
  (Z.of_nat (n * C) < two32)%Z -> (Z.of_nat n < two32)%Z -> length b = n * C -> length out = n * C ->
  exists a', deinterleave V a b n C = Some a' /\ interleave V a' out n C = Some b.
Proof. exact deinterleave_then_interleave. Qed.
Print Assumptions c36_inverse_2.
Example c36_instance :
  interleave Z [[1;2;3];[4;5;6]]%Z (repeat 0%Z 6) 3 2 = Some [1;4;2;5;3;6]%Z /\
  deinterleave Z [[0;0;0];[0;0;0]]%Z [1;4;2;5;3;6]%Z 3 2 = Some [[1;2;3];[4;5;6]]%Z.
Proof. split; reflexivity. Qed.

(** C76: conversion between samples and times *)
Theorem c76_samples_to_times :
  forall (l : list Q) (n : nat) (out : list Z), n <= length l -> n <= length out -> Forall (fun x => 0 <= x /\ x + (1 # 2) < inject_Z two32)%Q l ->
  exists out', samples_to_times l n out = Some out' /\ length out' = length out /\ (forall i, n <= i -> nth_error out' i = nth_error out i) /\
  (forall i x, i < n -> nth_error l i = Some x -> exists y, nth_error out' i = Some y /\ rounded x y).
Proof. exact to_times_correct. Qed.
Print Assumptions c76_samples_to_times.
Theorem c76_round_trip :
  forall (l : list Z) (n : nat) (out : list Q) (out2 : list Z), n <= length l -> n <= length out -> n <= length out2 -> Forall word l ->
  exists mid fin, times_to_samples l n out = Some mid /\ samples_to_times mid n out2 = Some fin /\ firstn n fin = firstn n l.
Proof. exact round_trip_times. Qed.
Print Assumptions c76_round_trip.
(** C76: powers *)
Theorem c76_multiplications :
  forall (start factor : Z) (n : nat) (out : list Z), (0 <= start < two32)%Z -> n <= length out ->
  times_multiplications start factor n out = Some (map (fun i => u32 (start * factor ^ Z.of_nat i)) (seq 0 n) ++ skipn n out).
Proof. exact multiplications_correct. Qed.
Print Assumptions c76_multiplications.
(** C76: samples from -1 to 1 become numbers from 0 to 1 *)
Theorem c76_units :
  forall (l : list Q) (n : nat), n <= length l -> samples_to_units l n = Some (map (fun x => (x + 1) / 2)%Q (firstn n l) ++ skipn n l).
Proof. exact to_units_correct. Qed.
Print Assumptions c76_units.
(** C76: element i times the divisor to the power i is the start value *)
Theorem c76_divisions :
  forall (start divisor : Q) (n : nat) (out : list Q), ~ (divisor == 0)%Q -> n <= length out ->
  exists out', samples_divisions start divisor n out = Some (out' ++ skipn n out) /\ length out' = n /\
  forall i, i < n -> exists v, nth_error out' i = Some v /\ (v * divisor ^ Z.of_nat i == start)%Q.
Proof. exact divisions_correct. Qed.
Print Assumptions c76_divisions.
Example c76_instance :
  samples_to_times [1;5#2;7#10]%Q 3 [0;0;0;9]%Z = Some [1;3;1;9]%Z /\ times_multiplications 2 3 4 (repeat 0%Z 5) = Some [2;6;18;54;0]%Z /\
  times_to_samples [3;4]%Z 2 [0;0]%Q = Some [3;4]%Q /\ option_map (map Qred) (samples_to_units [-1;1#2;7]%Q 2) = Some [0;3#4;7]%Q /\
  option_map (map Qred) (samples_divisions 8 2 3 [0;0;0;5]%Q) = Some [8;4;2;5]%Q.
Proof. splits; reflexivity. Qed.
