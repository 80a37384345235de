From Coq Require Import QArith Lqa.
From Verif Require Import Base MavModel MavSpec.
Open Scope nat_scope.

Lemma qsumf_snoc f n : forall i, (qsumf f i (S n) == qsumf f i n + f (i + Z.of_nat n)%Z)%Q.
Proof.
  induction n; intros i; [cbn [qsumf]; rewrite Z.add_0_r; ring|]. change (qsumf f i (S (S n))) with (f i + qsumf f (i + 1) (S n))%Q. rewrite IHn.
  cbn [qsumf]. replace (i + 1 + Z.of_nat n)%Z with (i + Z.of_nat (S n))%Z by lia. ring.
Qed.
Lemma qsumf_next f n i : (qsumf f (i + 1) n == qsumf f i n + f (i + Z.of_nat n)%Z - f i)%Q.
Proof. pose proof (qsumf_snoc f n i) as h. cbn [qsumf] in h. lra. Qed.
Lemma qsumf_ext f g n : forall i, (forall j, (i <= j < i + Z.of_nat n)%Z -> (f j == g j)%Q) -> (qsumf f i n == qsumf g i n)%Q.
Proof. induction n; intros i h; cbn [qsumf]; [reflexivity|]. rewrite h by lia. rewrite IHn; [reflexivity|]. intros j hj. apply h. lia. Qed.
Lemma sample_get l i : i < length l -> nth_error l i = Some (sample l (Z.of_nat i)).
Proof. intros h. unfold sample. destruct (Z.ltb_spec (Z.of_nat i) 0); [lia|]. rewrite Nat2Z.id. apply nth_error_nth'. exact h. Qed.

Definition means (f : Z -> Q) (radius : nat) (out0 out : list Q) (k : nat) : Prop :=
  length out = length out0 /\ (forall i, i < k -> exists x, nth_error out i = Some x /\ (x == centered_mean f radius i)%Q) /\
  (forall i, k <= i -> nth_error out i = nth_error out0 i).
Lemma means_set f radius out0 out k s w : means f radius out0 out k -> k < length out0 -> (s == qsumf f (Z.of_nat k - Z.of_nat radius) (2 * radius + 1))%Q ->
  w = inject_Z (2 * Z.of_nat radius + 1) -> exists out', aset out k (s / w)%Q = Some out' /\ means f radius out0 out' (S k).
Proof.
  intros (h1 & h2 & h3) hk hs ->. destruct (aset_some out k (s / inject_Z (2 * Z.of_nat radius + 1))%Q) as [o e]; [lia|]. exists o. split; [exact e|].
  split; [rewrite (aset_length _ _ _ _ e); exact h1|]. split; intros i hi; rewrite (aset_get _ _ _ _ i e); destruct (Nat.eqb_spec i k) as [->|ne].
  - eexists. split; [reflexivity|]. unfold centered_mean. rewrite hs. reflexivity.
  - apply h2. lia.
  - lia.
  - apply h3. lia.
Qed.
Lemma segment f radius out0 w lo hi (fx fy : nat -> option Q) out s :
  1 <= lo <= hi -> hi <= length out0 -> w = inject_Z (2 * Z.of_nat radius + 1) ->
  (forall i, lo <= i < hi -> exists x, fx i = Some x /\ (x == f (Z.of_nat i + Z.of_nat radius)%Z)%Q) ->
  (forall i, lo <= i < hi -> exists y, fy i = Some y /\ (y == f (Z.of_nat i - Z.of_nat radius - 1)%Z)%Q) ->
  means f radius out0 out lo -> (s == qsumf f (Z.of_nat lo - 1 - Z.of_nat radius) (2 * radius + 1))%Q ->
  exists out' s', for_ lo hi (fun i '(out, sum) => x <- fx i ;; y <- fy i ;; out <- aset out i ((sum + x - y) / w)%Q ;; Some (out, (sum + x - y)%Q)) (out, s) = Some (out', s') /\
    means f radius out0 out' hi /\ (s' == qsumf f (Z.of_nat hi - 1 - Z.of_nat radius) (2 * radius + 1))%Q.
Proof.
  intros hl hh hw hx hy hm hs.
  match goal with |- context [for_ lo hi ?body _] => destruct (for_inv (fun k '(o, s) => means f radius out0 o k /\ (s == qsumf f (Z.of_nat k - 1 - Z.of_nat radius) (2 * radius + 1))%Q) body lo hi (out, s)) as [[o s'] [e [h1 h2]]] end.
  - lia.
  - auto.
  - intros i [o s0] hi' [h1 h2]. destruct (hx i hi') as (x & -> & ex). destruct (hy i hi') as (y & -> & ey). cbn [bind].
    assert (hsum : (s0 + x - y == qsumf f (Z.of_nat i - Z.of_nat radius) (2 * radius + 1))%Q).
    { pose proof (qsumf_next f (2 * radius + 1) (Z.of_nat i - Z.of_nat radius - 1)) as hq.
      replace (Z.of_nat i - Z.of_nat radius - 1 + Z.of_nat (2 * radius + 1))%Z with (Z.of_nat i + Z.of_nat radius)%Z in hq by lia.
      replace (Z.of_nat i - Z.of_nat radius - 1 + 1)%Z with (Z.of_nat i - Z.of_nat radius)%Z in hq by lia.
      replace (Z.of_nat i - 1 - Z.of_nat radius)%Z with (Z.of_nat i - Z.of_nat radius - 1)%Z in h2 by lia. rewrite hq, h2, ex, ey. reflexivity. }
    destruct (means_set f radius out0 o i (s0 + x - y)%Q w h1 ltac:(lia) hsum hw) as (o' & e & h1'). rewrite e. cbn [bind]. eexists (_, _). split; [reflexivity|]. split; [exact h1'|].
    replace (Z.of_nat (S i) - 1 - Z.of_nat radius)%Z with (Z.of_nat i - Z.of_nat radius)%Z by lia. exact hsum.
  - exists o, s'. auto.
Qed.

Lemma initial_reflected (f : Z -> Q) n : (forall i, (0 < i <= Z.of_nat n)%Z -> (f (- i)%Z == - f i)%Q) -> (qsumf f (- Z.of_nat n) (2 * n + 1) == f 0%Z)%Q.
Proof.
  induction n; intros h; [cbn; ring|]. replace (2 * S n + 1) with (S (S (2 * n + 1))) by lia. rewrite qsumf_snoc. cbn [qsumf].
  replace (- Z.of_nat (S n) + 1)%Z with (- Z.of_nat n)%Z by lia. rewrite IHn by (intros i hi; apply h; lia).
  replace (- Z.of_nat (S n) + Z.of_nat (S (2 * n + 1)))%Z with (Z.of_nat (S n)) by lia. rewrite h by lia. ring.
Qed.
Lemma initial_prev (f : Z -> Q) n : forall s0, (s0 == f 0%Z)%Q -> forall (g : nat -> Q -> option Q), (forall i s, i < n -> exists x, g i s = Some x /\ (x == s + (f (- Z.of_nat i - 1)%Z + f (Z.of_nat i + 1)%Z))%Q) ->
  exists s, for_ 0 n g s0 = Some s /\ (s == qsumf f (- Z.of_nat n) (2 * n + 1))%Q.
Proof.
  intros s0 h0 g hg. destruct (for_inv (fun k s => (s == qsumf f (- Z.of_nat k) (2 * k + 1))%Q) g 0 n s0) as [s [e hs]].
  - lia.
  - cbn. rewrite h0. ring.
  - intros i s hi hs. destruct (hg i s ltac:(lia)) as (x & e & hx). exists x. split; [exact e|]. rewrite hx, hs. replace (2 * S i + 1) with (S (S (2 * i + 1))) by lia. rewrite qsumf_snoc. cbn [qsumf].
    replace (- Z.of_nat (S i) + 1)%Z with (- Z.of_nat i)%Z by lia. replace (- Z.of_nat (S i) + Z.of_nat (S (2 * i + 1)))%Z with (Z.of_nat i + 1)%Z by lia.
    replace (- Z.of_nat (S i))%Z with (- Z.of_nat i - 1)%Z by lia. ring.
  - exists s. auto.
Qed.

Lemma moving_average_used input prev next radius out :
  2 * radius + 1 <= length input -> (Z.of_nat (length input) < two32)%Z -> length input <= length out ->
  (forall p, prev = Some p -> length p = length input) -> (forall p, next = Some p -> radius <= length p) ->
  exists out', moving_average input prev next radius out = Some out' /\ means (used input prev next) radius out out' (length input).
Proof.
  intros hw hn ho hp hx. set (n := length input) in *. unfold moving_average, moving_average_of. fold n. cbv beta. set (f := used input prev next).
  assert (hwid : u32 (u32 (Z.of_nat radius * 2) + 1) = (2 * Z.of_nat radius + 1)%Z).
  { rewrite (u32_small (Z.of_nat radius * 2)) by (unfold two32 in *; lia). rewrite u32_small by (unfold two32 in *; lia). lia. }
  cbv zeta. rewrite hwid. set (w := inject_Z (2 * Z.of_nat radius + 1)).
  assert (hin : forall i, i < n -> nth_error input i = Some (sample input (Z.of_nat i))) by (intros; apply sample_get; auto).
  assert (hfin : forall i, i < n -> f (Z.of_nat i) = sample input (Z.of_nat i)).
  { intros i hi. unfold f, used. fold n. destruct (Z.ltb_spec (Z.of_nat i) 0); [lia|]. destruct (Z.ltb_spec (Z.of_nat i) (Z.of_nat n)); [reflexivity|lia]. }
  assert (hneg : forall i, (i < 0)%Z -> f i = before_start input prev i).
  { intros i hi. unfold f, used. destruct (Z.ltb_spec i 0); [reflexivity|lia]. }
  assert (hbig : forall i, (Z.of_nat n <= i)%Z -> f i = after_end_used input next i).
  { intros i hi. unfold f, used. fold n. destruct (Z.ltb_spec i 0); [lia|]. destruct (Z.ltb_spec i (Z.of_nat n)); [lia|reflexivity]. }
  unfold aget at 1. rewrite hin by lia. cbn [bind]. change (Z.of_nat 0) with 0%Z in *.
  assert (hf0 : f 0%Z = sample input 0%Z) by (apply (hfin 0); lia).
  assert (h0 : exists s, match prev with
    | Some prev => for_ 0 radius (fun i sum => x <- aget prev (n - i - 1) ;; y <- aget input (i + 1) ;; Some (sum + (x + y))%Q) (sample input 0)
    | None => aget input 0 end = Some s /\ (s == qsumf f (- Z.of_nat radius) (2 * radius + 1))%Q).
  { destruct prev as [p|].
    - specialize (hp p eq_refl). apply initial_prev; [rewrite hf0; reflexivity|]. intros i s hi. unfold aget. rewrite (sample_get p) by lia. cbn [bind]. rewrite hin by lia. cbn [bind].
      eexists. split; [reflexivity|]. rewrite hneg by lia. unfold before_start. fold n. rewrite <- (hfin (i + 1)) by lia.
      replace (Z.of_nat n + (- Z.of_nat i - 1))%Z with (Z.of_nat (n - i - 1)) by lia. replace (Z.of_nat (i + 1)) with (Z.of_nat i + 1)%Z by lia. reflexivity.
    - eexists. unfold aget. rewrite hin by lia. split; [reflexivity|]. rewrite initial_reflected; [rewrite hf0; reflexivity|].
      intros i hi. rewrite hneg by lia. unfold before_start. replace i with (Z.of_nat (Z.to_nat i)) by lia. rewrite hfin by lia. rewrite Z.opp_involutive. reflexivity. }
  destruct h0 as (s0 & -> & hs0). cbn [bind].
  destruct (means_set f radius out out 0 s0 w) as (o1 & e1 & m1); [split; [reflexivity|split; [intros; lia|reflexivity]]|lia| |reflexivity|].
  { rewrite hs0. reflexivity. }
  rewrite e1. cbn [bind].
  assert (hin2 : forall i, i + radius < n -> exists x, aget input (i + radius) = Some x /\ (x == f (Z.of_nat i + Z.of_nat radius)%Z)%Q).
  { intros i hi. unfold aget. rewrite hin by exact hi. eexists. split; [reflexivity|]. rewrite <- hfin by exact hi. rewrite Nat2Z.inj_add. reflexivity. }
  assert (hin3 : forall i, radius + 1 <= i < n -> exists x, aget input (i - radius - 1) = Some x /\ (x == f (Z.of_nat i - Z.of_nat radius - 1)%Z)%Q).
  { intros i hi. unfold aget. rewrite hin by lia. eexists. split; [reflexivity|]. rewrite <- hfin by lia. replace (Z.of_nat (i - radius - 1)) with (Z.of_nat i - Z.of_nat radius - 1)%Z by lia. reflexivity. }
  destruct (segment f radius out w 1 (radius + 1) (fun i => aget input (i + radius))
    (fun i => match prev with Some prev => aget prev (n - radius - 1 + i) | None => y <- aget input (radius - i + 1) ;; Some (y * (-1))%Q end) o1 s0) as (o2 & s2 & e2 & m2 & hs2);
    [lia|lia|reflexivity| | |exact m1| |].
  { intros i hi. apply hin2. lia. }
  { intros i hi. rewrite hneg by lia. unfold before_start. fold n. destruct prev as [p|].
    - specialize (hp p eq_refl). unfold aget. rewrite (sample_get p) by lia. eexists. split; [reflexivity|].
      replace (Z.of_nat n + (Z.of_nat i - Z.of_nat radius - 1))%Z with (Z.of_nat (n - radius - 1 + i)) by lia. reflexivity.
    - unfold aget. rewrite hin by lia. cbn [bind]. eexists. split; [reflexivity|]. replace (- (Z.of_nat i - Z.of_nat radius - 1))%Z with (Z.of_nat (radius - i + 1)) by lia. ring. }
  { exact hs0. }
  rewrite e2. cbn [bind].
  destruct (segment f radius out w (radius + 1) (n - radius) (fun i => aget input (i + radius)) (fun i => aget input (i - radius - 1)) o2 s2) as (o3 & s3 & e3 & m3 & hs3);
    [lia|lia|reflexivity| | |exact m2|exact hs2|].
  { intros i hi. apply hin2. lia. }
  { intros i hi. apply hin3. lia. }
  rewrite e3. cbn [bind].
  destruct (segment f radius out w (n - radius) n
    (fun i => match next with Some next => aget next (i - (n - radius)) | None => x <- aget input (i + radius + 1 - n) ;; Some (x * (-1))%Q end) (fun i => aget input (i - radius - 1)) o3 s3) as (o4 & s4 & e4 & m4 & hs4);
    [lia|lia|reflexivity| | |exact m3|exact hs3|].
  { intros i hi. rewrite hbig by lia. unfold after_end_used. fold n. destruct next as [p|].
    - specialize (hx p eq_refl). unfold aget. rewrite (sample_get p) by lia. eexists. split; [reflexivity|].
      replace (Z.of_nat i + Z.of_nat radius - Z.of_nat n)%Z with (Z.of_nat (i - (n - radius))) by lia. reflexivity.
    - unfold aget. rewrite hin by lia. cbn [bind]. eexists. split; [reflexivity|]. replace (Z.of_nat i + Z.of_nat radius + 1 - Z.of_nat n)%Z with (Z.of_nat (i + radius + 1 - n)) by lia. ring. }
  { intros i hi. apply hin3. lia. }
  rewrite e4. cbn [bind]. exists o4. split; [reflexivity|exact m4].
Qed.
(** with [next], or not near the end, this is the documented continuation *)
Lemma used_extended input prev next radius i : (next <> None \/ i + radius < length input) ->
  (centered_mean (used input prev next) radius i == centered_mean (extended input prev next) radius i)%Q.
Proof.
  intros h. unfold centered_mean. rewrite (qsumf_ext _ (extended input prev next)); [reflexivity|]. intros j hj. unfold used, extended.
  destruct (Z.ltb_spec j 0); [reflexivity|]. destruct (Z.ltb_spec j (Z.of_nat (length input))); [reflexivity|].
  destruct h as [h|h]; [|lia]. unfold after_end, after_end_used. destruct next; [reflexivity|contradiction].
Qed.
Lemma moving_average_correct input prev next radius out :
  2 * radius + 1 <= length input -> (Z.of_nat (length input) < two32)%Z -> length input <= length out ->
  (forall p, prev = Some p -> length p = length input) -> (forall p, next = Some p -> radius <= length p) ->
  exists out', moving_average input prev next radius out = Some out' /\ length out' = length out /\
    (forall i, length input <= i -> nth_error out' i = nth_error out i) /\
    forall i, i < length input -> (next <> None \/ i + radius < length input) ->
      exists x, nth_error out' i = Some x /\ (x == centered_mean (extended input prev next) radius i)%Q.
Proof.
  intros h1 h2 h3 h4 h5. destruct (moving_average_used input prev next radius out h1 h2 h3 h4 h5) as (o & e & m1 & m2 & m3). exists o. splits; auto.
  intros i hi hc. destruct (m2 i hi) as (x & hx & ex). exists x. split; [exact hx|]. rewrite ex. apply used_extended. exact hc.
Qed.
Lemma moving_average_computed input prev next radius out :
  2 * radius + 1 <= length input -> (Z.of_nat (length input) < two32)%Z -> length input <= length out ->
  (forall p, prev = Some p -> length p = length input) -> (forall p, next = Some p -> radius <= length p) ->
  exists out', moving_average input prev next radius out = Some out' /\ length out' = length out /\
    forall i, i < length input -> exists x, nth_error out' i = Some x /\ (x == centered_mean (used input prev next) radius i)%Q.
Proof.
  intros h1 h2 h3 h4 h5. destruct (moving_average_used input prev next radius out h1 h2 h3 h4 h5) as (o & e & m1 & m2 & m3). exists o. splits; auto.
Qed.
Lemma qsumf_app f n m : forall i, (qsumf f i (n + m) == qsumf f i n + qsumf f (i + Z.of_nat n) m)%Q.
Proof.
  induction n as [|n IH]; intros i; cbn [Nat.add qsumf]; [rewrite Z.add_0_r; ring|]. rewrite IH. replace (i + 1 + Z.of_nat n)%Z with (i + Z.of_nat (S n))%Z by lia. ring.
Qed.
Lemma qsumf_opp f g n : forall i j, (forall k, (0 <= k < Z.of_nat n)%Z -> (f (i + k)%Z == - g (j + k)%Z)%Q) -> (qsumf f i n == - qsumf g j n)%Q.
Proof.
  induction n as [|n IH]; intros i j h; cbn [qsumf]; [ring|]. rewrite (IH (i + 1)%Z (j + 1)%Z).
  - pose proof (h 0%Z ltac:(lia)) as h0. rewrite !Z.add_0_r in h0. rewrite h0. ring.
  - intros k hk. replace (i + 1 + k)%Z with (i + (k + 1))%Z by lia. replace (j + 1 + k)%Z with (j + (k + 1))%Z by lia. apply h. lia.
Qed.
Lemma qsumf_rev f n : forall i, (qsumf f i n == qsumf (fun k => f (2 * i + Z.of_nat n - 1 - k)%Z) i n)%Q.
Proof.
  induction n as [|n IH]; intros i; [reflexivity|]. rewrite qsumf_snoc. cbn [qsumf]. replace (2 * i + Z.of_nat (S n) - 1 - i)%Z with (i + Z.of_nat n)%Z by lia.
  rewrite (IH i). enough (e : (qsumf (fun k => f (2 * i + Z.of_nat n - 1 - k)%Z) i n == qsumf (fun k => f (2 * i + Z.of_nat (S n) - 1 - k)%Z) (i + 1) n)%Q) by (rewrite e; ring).
  assert (sh : forall g h m a b, (forall k, (0 <= k < Z.of_nat m)%Z -> (g (a + k)%Z == h (b + k)%Z)%Q) -> (qsumf g a m == qsumf h b m)%Q).
  { induction m as [|m IHm]; intros a b hh; [reflexivity|]. cbn [qsumf]. rewrite (IHm (a + 1)%Z (b + 1)%Z).
    - pose proof (hh 0%Z ltac:(lia)) as h0. rewrite !Z.add_0_r in h0. rewrite h0. reflexivity.
    - intros k hk. replace (a + 1 + k)%Z with (a + (k + 1))%Z by lia. replace (b + 1 + k)%Z with (b + (k + 1))%Z by lia. apply hh. lia. }
  apply sh. intros k hk. replace (2 * i + Z.of_nat n - 1 - (i + k))%Z with (2 * i + Z.of_nat (S n) - 1 - (i + 1 + k))%Z by lia. reflexivity.
Qed.
(** the last output *)
Lemma last_windows input prev radius : 2 * radius + 1 <= length input ->
  let n := length input in
  (qsumf (used input prev None) (Z.of_nat (n - 1) - Z.of_nat radius) (2 * radius + 1) - qsumf (extended input prev None) (Z.of_nat (n - 1) - Z.of_nat radius) (2 * radius + 1) ==
   qsumf (sample input) (Z.of_nat n - 1 - Z.of_nat radius) radius - qsumf (sample input) 1 radius)%Q.
Proof.
  intros h n. replace (2 * radius + 1) with (radius + 1 + radius) by lia. rewrite !(qsumf_app _ (radius + 1) radius).
  replace (Z.of_nat (n - 1) - Z.of_nat radius + Z.of_nat (radius + 1))%Z with (Z.of_nat n) by (unfold n; lia).
  rewrite (qsumf_ext (used input prev None) (extended input prev None) (radius + 1)).
  2: { intros j hj. unfold used, extended. fold n. destruct (Z.ltb_spec j 0); [reflexivity|]. destruct (Z.ltb_spec j (Z.of_nat n)); [reflexivity|unfold n in *; lia]. }
  assert (e1 : (qsumf (used input prev None) (Z.of_nat n) radius == - qsumf (sample input) 1 radius)%Q).
  { apply qsumf_opp. intros k hk. unfold used. fold n. destruct (Z.ltb_spec (Z.of_nat n + k) 0); [lia|]. destruct (Z.ltb_spec (Z.of_nat n + k) (Z.of_nat n)); [lia|].
    unfold after_end_used. fold n. replace (Z.of_nat n + k + 1 - Z.of_nat n)%Z with (1 + k)%Z by lia. reflexivity. }
  assert (e2 : (qsumf (extended input prev None) (Z.of_nat n) radius == - qsumf (sample input) (Z.of_nat n - 1 - Z.of_nat radius) radius)%Q).
  { rewrite (qsumf_rev (sample input)). apply qsumf_opp. intros k hk. unfold extended. fold n. destruct (Z.ltb_spec (Z.of_nat n + k) 0); [lia|]. destruct (Z.ltb_spec (Z.of_nat n + k) (Z.of_nat n)); [lia|].
    unfold after_end. fold n. replace (2 * (Z.of_nat n - 1) - (Z.of_nat n + k))%Z with (2 * (Z.of_nat n - 1 - Z.of_nat radius) + Z.of_nat radius - 1 - (Z.of_nat n - 1 - Z.of_nat radius + k))%Z by lia. reflexivity. }
  rewrite e1, e2. ring.
Qed.
Lemma last_output input prev radius out :
  2 * radius + 1 <= length input -> (Z.of_nat (length input) < two32)%Z -> length input <= length out -> (forall p, prev = Some p -> length p = length input) ->
  exists out' x, moving_average input prev None radius out = Some out' /\ nth_error out' (length input - 1) = Some x /\
    ((x == centered_mean (extended input prev None) radius (length input - 1))%Q <-> (qsumf (sample input) 1 radius == qsumf (sample input) (Z.of_nat (length input) - 1 - Z.of_nat radius) radius)%Q).
Proof.
  intros h1 h2 h3 h4. destruct (moving_average_computed input prev None radius out h1 h2 h3 h4 ltac:(discriminate)) as (o & e & _ & m).
  destruct (m (length input - 1) ltac:(lia)) as (x & hx & ex). exists o, x. splits; auto. rewrite ex. unfold centered_mean.
  pose proof (last_windows input prev radius h1) as lw. cbv zeta in lw. set (a := qsumf (used _ _ _) _ _) in *. set (b := qsumf (extended _ _ _) _ _) in *.
  assert (w0 : ~ (inject_Z (2 * Z.of_nat radius + 1) == 0)%Q). { change 0%Q with (inject_Z 0). rewrite inject_Z_injective. lia. }
  split; intros q.
  - assert (ab : (a == b)%Q). { rewrite <- (Qmult_div_r a (inject_Z (2 * Z.of_nat radius + 1)) w0), q. apply Qmult_div_r. exact w0. } rewrite ab in lw. lra.
  - rewrite q in lw. assert (ab : (a == b)%Q) by lra. rewrite ab. reflexivity.
Qed.
