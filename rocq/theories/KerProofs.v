From Coq Require Import Reals Lra.
From Verif Require Import Base ConvolveModel ConvolveSpec ConvolveProofs KerModel KerSpec.
Open Scope R_scope.

(** ** sums *)
Lemma rsumf_ext n f g : (forall i, (i < n)%nat -> f i = g i) -> rsumf n f = rsumf n g.
Proof. induction n; intros h; cbn [rsumf]; [reflexivity|]. rewrite IHn by (intros; apply h; lia). rewrite h by lia. reflexivity. Qed.
Lemma rsumf_plus n f g : rsumf n (fun i => f i + g i) = rsumf n f + rsumf n g.
Proof. induction n; cbn [rsumf]; [ring|]. rewrite IHn. ring. Qed.
Lemma rsumf_minus n f g : rsumf n (fun i => f i - g i) = rsumf n f - rsumf n g.
Proof. induction n; cbn [rsumf]; [ring|]. rewrite IHn. ring. Qed.
Lemma rsumf_scal n c f : rsumf n (fun i => c * f i) = c * rsumf n f.
Proof. induction n; cbn [rsumf]; [ring|]. rewrite IHn. ring. Qed.
Lemma rsumf_scal_r n c f : rsumf n (fun i => f i * c) = rsumf n f * c.
Proof. induction n; cbn [rsumf]; [ring|]. rewrite IHn. ring. Qed.
Lemma rsumf_zero n : rsumf n (fun _ => 0) = 0.
Proof. induction n; cbn [rsumf]; [reflexivity|]. rewrite IHn. ring. Qed.
Lemma rsumf_zero_in n f : (forall i, (i < n)%nat -> f i = 0) -> rsumf n f = 0.
Proof. intros h. rewrite (rsumf_ext n f (fun _ => 0)) by exact h. apply rsumf_zero. Qed.
Lemma rsumf_app n m f : rsumf (n + m) f = rsumf n f + rsumf m (fun i => f (n + i)%nat).
Proof. induction m; [rewrite Nat.add_0_r; cbn [rsumf]; ring|]. rewrite Nat.add_succ_r. cbn [rsumf]. rewrite IHm. ring. Qed.
Lemma rsumf_one n k c : (k < n)%nat -> rsumf n (fun i => if (i =? k)%nat then c i else 0) = c k.
Proof.
  intros h. replace n with (k + S (n - k - 1))%nat by lia. rewrite rsumf_app. rewrite rsumf_zero_in.
  - replace (S (n - k - 1)) with (1 + (n - k - 1))%nat by lia. rewrite rsumf_app. cbn [rsumf]. rewrite Nat.add_0_r, Nat.eqb_refl.
    rewrite rsumf_zero_in; [ring|]. intros i _. destruct (Nat.eqb_spec (k + (1 + i)) k); [lia|reflexivity].
  - intros i hi. destruct (Nat.eqb_spec i k); [lia|reflexivity].
Qed.
Lemma rsumf_swap n m (f : nat -> nat -> R) : rsumf n (fun i => rsumf m (f i)) = rsumf m (fun j => rsumf n (fun i => f i j)).
Proof. induction n; cbn [rsumf]; [symmetry; apply rsumf_zero|]. rewrite IHn, <- rsumf_plus. reflexivity. Qed.
Lemma rsumf_shift n f : rsumf (S n) f = f 0%nat + rsumf n (fun i => f (S i)).
Proof. replace (S n) with (1 + n)%nat by lia. rewrite rsumf_app. cbn [rsumf]. rewrite Rplus_0_l. reflexivity. Qed.
Lemma rsumf_rev n f : rsumf n f = rsumf n (fun i => f (n - 1 - i)%nat).
Proof.
  induction n; [reflexivity|]. rewrite (rsumf_shift n (fun i => f (S n - 1 - i)%nat)). cbn [rsumf]. rewrite IHn.
  replace (S n - 1 - 0)%nat with n by lia. rewrite (rsumf_ext n (fun i => f (S n - 1 - S i)%nat) (fun i => f (n - 1 - i)%nat)); [ring|].
  intros i hi. f_equal. lia.
Qed.

(** ** loops *)
Lemma nth_error_nth_eq {A} (l : list A) i x d : nth_error l i = Some x -> nth i l d = x.
Proof. intros h. apply nth_error_nth with (d := d) in h. exact h. Qed.
Lemma nth_error_of_nth {A} (l : list A) i d : (i < length l)%nat -> nth_error l i = Some (nth i l d).
Proof. apply nth_error_nth'. Qed.
Lemma list_eq_nth {A} (a b : list A) d : length a = length b -> (forall i, (i < length a)%nat -> nth i a d = nth i b d) -> a = b.
Proof. intros h1 h2. apply (nth_ext a b d d h1 h2). Qed.
Lemma loop_set {A} (f : nat -> A) (a : list A) n d : n = length a ->
  exists a', for_ 0 n (fun i a => aset a i (f i)) a = Some a' /\ length a' = n /\ forall i, (i < n)%nat -> nth i a' d = f i.
Proof.
  intros ->. destruct (for_inv (fun k o => length o = length a /\ forall i, (i < k)%nat -> nth_error o i = Some (f i)) (fun i a => aset a i (f i)) 0 (length a) a) as [o [e [h1 h2]]].
  - lia.
  - split; [reflexivity|]. intros; lia.
  - intros i o hi [h1 h2]. destruct (aset_some o i (f i)) as [o' e]; [lia|]. exists o'. split; [exact e|]. split; [rewrite (aset_length _ _ _ _ e); exact h1|].
    intros j hj. rewrite (aset_get _ _ _ _ j e). destruct (Nat.eqb_spec j i) as [->|ne]; [reflexivity|]. apply h2. lia.
  - exists o. split; [exact e|]. split; [exact h1|]. intros i hi. apply nth_error_nth_eq. apply h2. exact hi.
Qed.
Lemma loop_mod {A} (g : A -> A) (a : list A) n d : n = length a ->
  exists a', for_ 0 n (fun i a => x <- aget a i ;; aset a i (g x)) a = Some a' /\ length a' = n /\ forall i, (i < n)%nat -> nth i a' d = g (nth i a d).
Proof.
  intros ->. destruct (for_inv (fun k o => length o = length a /\ (forall i, (i < k)%nat -> nth_error o i = option_map g (nth_error a i)) /\ (forall i, (k <= i)%nat -> nth_error o i = nth_error a i))
    (fun i a => x <- aget a i ;; aset a i (g x)) 0 (length a) a) as [o [e (h1 & h2 & h3)]].
  - lia.
  - splits; auto. intros; lia.
  - intros i o hi (h1 & h2 & h3). unfold aget. rewrite h3 by lia. destruct (nth_error_some a i) as [x hx]; [lia|]. rewrite hx. cbn [bind].
    destruct (aset_some o i (g x)) as [o' e]; [lia|]. exists o'. split; [exact e|]. split; [rewrite (aset_length _ _ _ _ e); exact h1|].
    split; intros j hj; rewrite (aset_get _ _ _ _ j e); destruct (Nat.eqb_spec j i) as [->|ne].
    + rewrite hx. reflexivity.
    + apply h2. lia.
    + lia.
    + apply h3. lia.
  - exists o. split; [exact e|]. split; [exact h1|]. intros i hi. apply nth_error_nth_eq. rewrite h2 by exact hi. rewrite (nth_error_of_nth a i d) by exact hi. reflexivity.
Qed.

Lemma rsum_correct l n : n = length l -> (0 < n)%nat -> rsum l n = Some (gain l).
Proof.
  intros -> h. set (n := length l). unfold rsum. unfold aget at 1. rewrite (nth_error_of_nth l (n - 1) 0) by (subst n; lia). cbn [bind].
  destruct (Nat.ltb_spec 0 n); [|lia]. cbn [need bind].
  match goal with |- context [for_ 0 (n - 1) ?body _] =>
    destruct (for_inv (fun k '(r, c) => c = 0 /\ r = rsumf (S k) (fun i => nth (n - 1 - i) l 0)) body 0%nat (n - 1)%nat (nth (n - 1) l 0, 0)) as [[r c] [e [hc hr]]] end.
  - lia.
  - cbn [rsumf]. rewrite Nat.sub_0_r. split; [reflexivity|ring].
  - intros k [r c] hk [hc hr]. unfold aget. rewrite (nth_error_of_nth l (n - 2 - k) 0) by (fold n; lia). cbn [bind]. eexists (_, _). split; [reflexivity|]. split.
    + subst c. destruct (Rle_dec _ _); ring.
    + rewrite hr. cbn [rsumf]. replace (n - 1 - S k)%nat with (n - 2 - k)%nat by lia. reflexivity.
  - rewrite e. cbn [bind]. f_equal. rewrite hc, hr, Rplus_0_l. replace (S (n - 1)) with n by lia. unfold gain. fold n. symmetry. apply rsumf_rev.
Qed.

(** ** inversion and reversal *)
Lemma center_nat len : (0 < len)%nat -> (Z.of_nat len < two32)%Z -> Z.to_nat (u32 (Z.of_nat len - 1) / 2) = ((len - 1) / 2)%nat.
Proof.
  intros h hl. rewrite u32_small by (unfold two32 in *; lia). replace (Z.of_nat len - 1)%Z with (Z.of_nat (len - 1)) by lia.
  change 2%Z with (Z.of_nat 2). rewrite <- Nat2Z.inj_div. apply Nat2Z.id.
Qed.
Lemma half_lt len : (0 < len)%nat -> ((len - 1) / 2 < len)%nat.
Proof. intros h. apply Nat.lt_le_trans with (S (len - 1)); [|lia]. apply Nat.lt_succ_r. apply Nat.div_le_upper_bound; lia. Qed.
Lemma inversion_correct a : (0 < length a)%nat -> (Z.of_nat (length a) < two32)%Z ->
  exists b, spectral_inversion a (length a) = Some b /\ length b = length a /\ forall i, (i < length a)%nat -> nth i b 0 = impulse (length a) i - nth i a 0.
Proof.
  intros h hl. unfold spectral_inversion. destruct (loop_mod (fun x => x * -1) a (length a) 0 eq_refl) as (a' & e & l1 & h1). rewrite e. cbn [bind].
  rewrite center_nat by auto. set (c := ((length a - 1) / 2)%nat) in *. pose proof (half_lt (length a) h) as hc. fold c in hc.
  unfold aget. rewrite (nth_error_of_nth a' c 0) by lia. cbn [bind]. destruct (aset_some a' c (nth c a' 0 + 1)) as [b eb]; [lia|]. exists b. split; [exact eb|].
  rewrite (aset_length _ _ _ _ eb). split; [exact l1|]. intros i hi. pose proof (aset_get _ _ _ _ i eb) as hg. unfold impulse. fold c.
  destruct (Nat.eqb_spec i c) as [->|ne].
  - apply nth_error_nth_eq. rewrite hg. f_equal. rewrite h1 by lia. ring.
  - apply nth_error_nth_eq. rewrite hg. rewrite (nth_error_of_nth a' i 0) by lia. f_equal. rewrite h1 by lia. ring.
Qed.
Lemma reversal_correct a :
  exists b, spectral_reversal a (length a) = Some b /\ length b = length a /\
    forall i, (i < length a)%nat -> nth i b 0 = if Nat.even (length a - i) then - nth i a 0 else nth i a 0.
Proof.
  unfold spectral_reversal. set (n := length a). pose proof (Nat.div_mod n 2 ltac:(lia)) as hd. pose proof (Nat.mod_upper_bound n 2 ltac:(lia)) as hm.
  destruct (for_inv (fun k o => length o = n /\ forall i, (i < n)%nat -> nth_error o i = Some (if Nat.even (n - i) && (n - 2 * k <=? i)%nat then - nth i a 0 else nth i a 0))
    (fun k a => let i := (n - 2 * (k + 1))%nat in x <- aget a i ;; aset a i (x * -1)) 0 (n / 2) a) as [o [e (h1 & h2)]].
  - lia.
  - split; [reflexivity|]. intros i hi. rewrite (nth_error_of_nth a i 0) by exact hi. f_equal.
    replace (n - 2 * 0 <=? i)%nat with false by (symmetry; apply Nat.leb_gt; lia). rewrite andb_false_r. reflexivity.
  - intros k o hk (h1 & h2). cbn zeta. set (i := (n - 2 * (k + 1))%nat). assert (hi : (i < n)%nat) by (subst i; lia). unfold aget. rewrite h2 by exact hi. cbn [bind].
    match goal with |- context [aset o i ?v] => destruct (aset_some o i v) as [o' e]; [lia|] end. exists o'. split; [exact e|]. split; [rewrite (aset_length _ _ _ _ e); exact h1|].
    intros j hj. rewrite (aset_get _ _ _ _ j e). destruct (Nat.eqb_spec j i) as [->|ne].
    + f_equal. replace (n - i)%nat with (2 * (k + 1))%nat by (subst i; lia). rewrite Nat.even_mul. cbn [Nat.even orb andb].
      replace (n - 2 * k <=? i)%nat with false by (symmetry; apply Nat.leb_gt; subst i; lia).
      replace (n - 2 * S k <=? i)%nat with true by (symmetry; apply Nat.leb_le; subst i; lia). ring.
    + rewrite h2 by exact hj. f_equal. destruct (Nat.even (n - j)) eqn:ev; [|reflexivity]. cbn [andb].
      apply Nat.even_spec in ev. destruct ev as [q hq]. destruct (Nat.leb_spec (n - 2 * k) j), (Nat.leb_spec (n - 2 * S k) j); try reflexivity; try lia; exfalso; subst i; lia.
  - exists o. split; [exact e|]. split; [exact h1|]. intros i hi. apply nth_error_nth_eq. rewrite h2 by exact hi. f_equal.
    destruct (Nat.even (n - i)) eqn:ev; [|reflexivity]. cbn [andb]. apply Nat.even_spec in ev. destruct ev as [q hq].
    destruct (Nat.leb_spec (n - 2 * (n / 2)) i); [reflexivity|]. lia.
Qed.

(** ** symmetry of the raw kernel *)
Lemma cos_mirror k x : cos (2 * INR k * PI - x) = cos x.
Proof. replace (2 * INR k * PI - x) with (- x + 2 * INR k * PI) by ring. rewrite cos_period. apply cos_neg. Qed.
Lemma window_mirror len i : (1 < len)%nat -> (i < len)%nat -> window_blackman (INR (len - 1 - i)) len = window_blackman (INR i) len.
Proof.
  intros hl hi. unfold window_blackman. replace (len - 1 - i)%nat with ((len - 1) - i)%nat by lia. rewrite minus_INR by lia. rewrite minus_INR by lia. cbn [INR].
  assert (hp : INR len - 1 <> 0) by (apply lt_INR in hl; cbn [INR] in hl; lra).
  replace (2 * PI * (INR len - 1 - INR i) / (INR len - 1)) with (2 * INR 1 * PI - 2 * PI * INR i / (INR len - 1)) by (cbn [INR]; field; exact hp).
  replace (4 * PI * (INR len - 1 - INR i) / (INR len - 1)) with (2 * INR 2 * PI - 4 * PI * INR i / (INR len - 1)) by (cbn [INR]; field; exact hp).
  rewrite !cos_mirror. reflexivity.
Qed.
Lemma sinc_even x : sinc (- x) = sinc x.
Proof.
  unfold sinc. destruct (Req_EM_T 0 (- x)), (Req_EM_T 0 x); try lra. replace (PI * - x) with (- (PI * x)) by ring. rewrite sin_neg.
  pose proof PI_RGT_0. field. lra.
Qed.
Lemma sinc_spec x : is_sinc x (sinc x).
Proof. unfold is_sinc, sinc. destruct (Req_EM_T 0 x) as [e|e]; split; intros h; try lra; reflexivity. Qed.
Lemma is_sinc_unique x a b : is_sinc x a -> is_sinc x b -> a = b.
Proof. intros [h1 h2] [k1 k2]. destruct (Req_EM_T x 0) as [e|e]; [rewrite h1, k1 by exact e; reflexivity|rewrite h2, k2 by exact e; reflexivity]. Qed.
Definition raw (fc : R) (len i : nat) : R := window_blackman (INR i) len * sinc (2 * fc * (INR i - (INR len - 1) / 2)).
Lemma raw_spec fc len i : raw_sample fc len i (raw fc len i).
Proof.
  exists (sinc (2 * fc * (INR i - (INR len - 1) / 2))). split; [apply sinc_spec|]. unfold raw, window_blackman.
  replace (2 * PI * INR i / (INR len - 1)) with (2 * PI * (INR i / (INR len - 1))) by (unfold Rdiv; ring).
  replace (4 * PI * INR i / (INR len - 1)) with (4 * PI * (INR i / (INR len - 1))) by (unfold Rdiv; ring). reflexivity.
Qed.
Lemma raw_unique fc len i x : raw_sample fc len i x -> x = raw fc len i.
Proof.
  intros (s & h1 & ->). destruct (raw_spec fc len i) as (s' & k1 & ->). rewrite (is_sinc_unique _ _ _ h1 k1). reflexivity.
Qed.
Lemma raw_mirror fc len i : (1 < len)%nat -> (i < len)%nat -> raw fc len (len - 1 - i) = raw fc len i.
Proof.
  intros hl hi. unfold raw. rewrite window_mirror by auto. f_equal. rewrite <- sinc_even. f_equal. replace (len - 1 - i)%nat with ((len - 1) - i)%nat by lia.
  rewrite minus_INR by lia. rewrite minus_INR by lia. cbn [INR]. field.
Qed.

(** ** length *)
Lemma ceil_spec x : x <= IZR (ceil x) < x + 1.
Proof. unfold ceil. rewrite opp_IZR. destruct (base_Int_part (- x)) as [h1 h2]. lra. Qed.
Lemma ceil_least x z : x <= IZR z -> (ceil x <= z)%Z.
Proof. intros h. destruct (ceil_spec x) as [_ h2]. assert (IZR (ceil x) < IZR (z + 1)) by (rewrite plus_IZR; lra). apply lt_IZR in H. lia. Qed.
Lemma odd_mod z n : (0 <= z)%Z -> n = Z.to_nat z -> Nat.odd n = negb (z mod 2 =? 0)%Z.
Proof.
  intros h ->. rewrite <- Nat.negb_even. f_equal. destruct (Z.eqb_spec (z mod 2) 0) as [e|e].
  - apply Nat.even_spec. exists (Z.to_nat (z / 2)). pose proof (Z.div_mod z 2 ltac:(lia)). pose proof (Z.div_pos z 2 h ltac:(lia)). lia.
  - destruct (Nat.even (Z.to_nat z)) eqn:ev; [|reflexivity]. apply Nat.even_spec in ev. destruct ev as [q hq]. exfalso. apply e.
    replace z with (2 * Z.of_nat q)%Z by lia. rewrite Z.mul_comm. apply Z.mod_mul. lia.
Qed.
Lemma ir_length_correct t : 0 < t -> 4 / t <= 4294967295 -> exists len, ir_length t = Some len /\ kernel_length t len /\ (Z.of_nat len < two32)%Z /\ (t < 4 -> (1 < len)%nat).
Proof.
  intros ht hb. unfold ir_length. destruct (Req_EM_T t 0) as [e|e]; [lra|]. set (x := 4 / t) in *. assert (hx : 0 < x) by (apply Rdiv_lt_0_compat; lra).
  destruct (ceil_spec x) as [c1 c2]. assert (ha : (1 <= ceil x)%Z) by (assert (0 < ceil x)%Z by (apply lt_IZR; lra); lia).
  assert (hb' : (ceil x <= 4294967295)%Z) by (apply ceil_least; exact hb).
  replace ((0 <=? ceil x)%Z && (ceil x <? two32)%Z) with true by (symmetry; apply andb_true_iff; split; [apply Z.leb_le; lia|apply Z.ltb_lt; unfold two32; lia]).
  cbn [need bind]. set (a := ceil x) in *.
  assert (h4 : t < 4 -> (1 < a)%Z).
  { intros h. apply lt_IZR. apply Rlt_le_trans with x; [|exact c1]. subst x. apply Rmult_lt_reg_r with t; [exact ht|]. unfold Rdiv. rewrite Rmult_assoc, Rinv_l by lra. lra. }
  destruct (Z.eqb_spec (a mod 2) 0) as [ev|od].
  - assert (a <> 4294967295)%Z by (intros hh; rewrite hh in ev; discriminate). rewrite u32_small by (unfold two32; lia).
    exists (Z.to_nat (a + 1)). split; [reflexivity|]. split; [|split; [unfold two32; lia|intros h; specialize (h4 h); lia]]. split; [|split].
    + rewrite (odd_mod (a + 1)) by (auto; lia). replace ((a + 1) mod 2)%Z with 1%Z; [reflexivity|]. rewrite Z.add_mod by lia. rewrite ev. reflexivity.
    + rewrite INR_IZR_INZ, Z2Nat.id by lia. rewrite plus_IZR. fold x. lra.
    + intros n hn hx'. fold x in hx'. rewrite INR_IZR_INZ in hx'. apply ceil_least in hx'. fold a in hx'.
      rewrite (odd_mod (Z.of_nat n)) in hn by lia. assert (Z.of_nat n <> a) by (intros hh; rewrite hh, ev in hn; discriminate). lia.
  - exists (Z.to_nat a). split; [reflexivity|]. split; [|split; [unfold two32; lia|intros h; specialize (h4 h); lia]]. split; [|split].
    + rewrite (odd_mod a) by (auto; lia). destruct (Z.eqb_spec (a mod 2) 0); [contradiction|reflexivity].
    + rewrite INR_IZR_INZ, Z2Nat.id by lia. exact c1.
    + intros n hn hx'. fold x in hx'. rewrite INR_IZR_INZ in hx'. apply ceil_least in hx'. fold a in hx'. lia.
Qed.
Lemma kernel_length_unique t a b : kernel_length t a -> kernel_length t b -> a = b.
Proof. intros (h1 & h2 & h3) (k1 & k2 & k3). apply Nat.le_antisymm; [apply h3|apply k3]; auto. Qed.
