From Verif Require Import Base BlockModel BlockSpec.

Section Blocks.
Variable V : Type.
Variable zero : V.
Notation mem := (mem V).
Notation cells := (cells V).
Notation next := (next V).

Lemma new_loop_ok memory_id size n : forall i channel register samples m, i + n <= length samples ->
  exists samples' m', new_loop V zero memory_id (fun _ => true) size n i channel register samples m = Some (success, samples', m') /\
    length samples' = length samples /\ next m' = next m + n /\
    (forall c, nth_error samples' c = if (i <=? c) && (c <? i + n) then Some (Some (next m + (c - i), 0)) else nth_error samples c) /\
    (forall q, cells m' q = if (next m <=? q) && (q <? next m + n) then Some (repeat zero size) else cells m q).
Proof.
  induction n as [|n IH]; intros i channel register samples m hl.
  - cbn [new_loop]. exists samples, m. splits; auto.
    + intros c. destruct (Nat.leb_spec i c), (Nat.ltb_spec c (i + 0)); cbn [andb]; auto; lia.
    + intros q. destruct (Nat.leb_spec (next m) q), (Nat.ltb_spec q (next m + 0)); cbn [andb]; auto; lia.
  - cbn [new_loop alloc helper_alloc is_failure success s_id Z.eqb negb bind]. destruct (aset_some samples i (Some (next m, 0))) as [s1 e1]; [lia|]. rewrite e1. cbn [bind].
    match goal with |- context [new_loop _ _ _ _ _ n (S i) ?ch ?rg s1 ?m1] => destruct (IH (S i) ch rg s1 m1) as (s' & m' & e & h1 & h2 & h3 & h4) end.
    { rewrite (aset_length _ _ _ _ e1). lia. }
    exists s', m'. cbn [BlockModel.next BlockModel.cells] in h2, h3, h4. splits; [exact e|rewrite h1; apply (aset_length _ _ _ _ e1)|lia| |].
    + intros c. rewrite h3, (aset_get _ _ _ _ c e1). destruct (Nat.leb_spec (S i) c), (Nat.ltb_spec c (S i + n)), (Nat.leb_spec i c), (Nat.ltb_spec c (i + S n)); cbn [andb]; try lia;
        destruct (Nat.eqb_spec c i); try lia; auto; do 3 f_equal; lia.
    + intros q. rewrite h4. destruct (Nat.leb_spec (S (next m)) q), (Nat.ltb_spec q (S (next m) + n)), (Nat.leb_spec (next m) q), (Nat.ltb_spec q (next m + S n)); cbn [andb]; try lia; auto;
        destruct (Nat.eqb_spec q (next m)); try lia; auto.
Qed.

Lemma block_new_ok memory_id cc size out m : cc <= length (b_samples out) ->
  exists b m', block_new V zero memory_id (fun _ => true) cc size out m = Some (success, b, m') /\ b_size b = size /\ b_channels b = cc /\
    owns V m' b (fun c => next m + c) /\ unchanged_but V m m' cc (fun c => next m + c) /\
    forall c i, c < cc -> sample_at V m' b c i = if i <? size then Some zero else None.
Proof.
  intros h. destruct (new_loop_ok memory_id size cc 0 None [] (b_samples out) m) as (s & m' & e & h1 & h2 & h3 & h4); [lia|].
  unfold block_new. rewrite e. cbn [bind is_failure success s_id Z.eqb negb]. eexists. exists m'. split; [reflexivity|]. cbn [b_size b_channels].
  assert (hch : forall c, c < cc -> channel {| b_size := size; b_channels := cc; b_samples := s |} c = Some (next m + c, 0)).
  { intros c hc. unfold channel, aget. cbn [b_samples]. rewrite h3. cbn [Nat.leb Nat.add andb]. rewrite (proj2 (Nat.ltb_lt _ _)) by lia. cbn [bind]. do 2 f_equal. lia. }
  assert (hce : forall c, c < cc -> cells m' (next m + c) = Some (repeat zero size)).
  { intros c hc. rewrite h4, (proj2 (Nat.leb_le _ _)), (proj2 (Nat.ltb_lt _ _)) by lia. reflexivity. }
  splits; auto.
  - intros c hc. cbn [b_channels b_size] in *. split; [exact (hch c hc)|]. split; [exists (repeat zero size); rewrite repeat_length; auto|]. intros; lia.
  - intros q hq. rewrite h4. destruct (Nat.leb_spec (next m) q), (Nat.ltb_spec q (next m + cc)); cbn [andb]; auto. exfalso. apply (hq (q - next m)); lia.
  - intros c i hc. unfold sample_at. rewrite hch by exact hc. cbn [bind]. unfold load. cbn [fst snd]. rewrite hce by exact hc. cbn [bind Nat.add]. unfold aget.
    destruct (Nat.ltb_spec i size); [apply nth_error_repeat; assumption|apply nth_error_None; rewrite repeat_length; assumption].
Qed.
Lemma block_new_too_many memory_id cc size out m : length (b_samples out) < cc -> block_new V zero memory_id (fun _ => true) cc size out m = None.
Proof.
  intros h. unfold block_new. assert (hg : forall n i ch rg s m, length s < i + n -> i <= length s -> new_loop V zero memory_id (fun _ => true) size n i ch rg s m = None).
  { induction n as [|n IH]; intros i ch rg s m0 hl hi; [lia|]. cbn [new_loop alloc helper_alloc is_failure success s_id Z.eqb negb bind].
    destruct (aset s i _) as [s1|] eqn:e1; cbn [bind]; [|reflexivity]. apply IH; rewrite (aset_length _ _ _ _ e1); [lia|]. pose proof (aset_lt _ _ _ _ e1). lia. }
  rewrite hg by lia. reflexivity.
Qed.

(** a reported failure: everything allocated before is freed *)
Lemma free_all_ok register : forall m, NoDup (map fst register) -> (forall p, In p register -> snd p = 0 /\ cells m (fst p) <> None) ->
  exists m', free_all V register m = Some m' /\ forall q, cells m' q = if in_dec Nat.eq_dec q (map fst register) then None else cells m q.
Proof.
  induction register as [|p register IH]; intros m hd hr.
  - exists m. split; [reflexivity|]. intros q. destruct (in_dec Nat.eq_dec q (map fst [])) as [i|i]; [destruct i|reflexivity].
  - cbn [free_all]. destruct (hr p (or_introl eq_refl)) as [h0 h1]. unfold free. rewrite h0. cbn [Nat.eqb need bind]. destruct (cells m (fst p)) eqn:e; [|contradiction]. cbn [bind].
    cbn [map] in hd. inversion hd as [|? ? hni hd2]; subst.
    destruct (IH (update V m (fst p) None) hd2) as (m' & e' & h').
    + intros p' hp'. destruct (hr p' (or_intror hp')) as [k0 k1]. split; [exact k0|]. cbn [update BlockModel.cells]. destruct (Nat.eqb_spec (fst p') (fst p)) as [hx|]; [|exact k1].
      exfalso. apply hni. rewrite <- hx. apply in_map. exact hp'.
    + exists m'. split; [exact e'|]. intros q. rewrite h'. cbn [update BlockModel.cells map]. destruct (in_dec Nat.eq_dec q (map fst register)), (in_dec Nat.eq_dec q (fst p :: map fst register)) as [i2|i2]; auto.
      * exfalso. apply i2. right. assumption.
      * destruct (Nat.eqb_spec q (fst p)); [reflexivity|]. exfalso. destruct i2; congruence.
      * destruct (Nat.eqb_spec q (fst p)) as [->|]; [exfalso; apply i2; left; reflexivity|reflexivity].
Qed.
Lemma new_loop_failure memory_id size ok n : memory_id <> 0%Z -> forall i channel (register : list pointer) samples m m0, i + n <= length samples -> (exists j, i <= j < i + n /\ ok j = false) ->
  NoDup (map fst register) -> (forall p, In p register -> snd p = 0 /\ cells m (fst p) <> None /\ fst p < next m) ->
  (forall q, cells m0 q = if in_dec Nat.eq_dec q (map fst register) then None else cells m q) ->
  exists samples' m', new_loop V zero memory_id ok size n i channel register samples m = Some (memory_error memory_id, samples', m') /\ forall q, q < next m -> cells m' q = cells m0 q.
Proof.
  intros hid. induction n as [|n IH]; intros i channel register samples m m0 hl hj hd hr hm; [destruct hj; lia|]. cbn [new_loop alloc].
  destruct (ok i) eqn:ei.
  - cbn [helper_alloc is_failure success s_id Z.eqb negb bind]. destruct (aset_some samples i (Some (next m, 0))) as [s1 e1]; [lia|]. rewrite e1. cbn [bind].
    match goal with |- context [new_loop _ _ _ _ _ n (S i) ?ch ?rg s1 ?m1] => destruct (IH (S i) ch rg s1 m1 (update V m0 (next m) None)) as (s' & m' & e & h) end.
    + rewrite (aset_length _ _ _ _ e1). lia.
    + destruct hj as (j & h1 & h2). exists j. split; [|exact h2]. destruct (Nat.eq_dec i j); [congruence|lia].
    + cbn [map fst]. constructor; [|exact hd]. intros hin. apply in_map_iff in hin as (p & ep & hp). destruct (hr p hp) as (_ & _ & hlt). lia.
    + intros p [<-|hp].
      * cbn [fst snd BlockModel.cells BlockModel.next]. rewrite Nat.eqb_refl. splits; [reflexivity|discriminate|lia].
      * destruct (hr p hp) as (k1 & k2 & k3). cbn [BlockModel.cells BlockModel.next]. splits; [exact k1| |lia]. destruct (Nat.eqb_spec (fst p) (next m)); [lia|exact k2].
    + intros q. cbn [update BlockModel.cells map fst]. rewrite hm. destruct (in_dec Nat.eq_dec q (next m :: map fst register)) as [i2|i2], (in_dec Nat.eq_dec q (map fst register)) as [i3|i3]; destruct (Nat.eqb_spec q (next m)) as [->|]; auto.
      * exfalso. destruct i2; congruence.
      * exfalso. apply i2. left. reflexivity.
      * exfalso. apply i2. right. exact i3.
      * exfalso. apply i2. left. reflexivity.
    + exists s', m'. split; [exact e|]. cbn [BlockModel.next] in h. intros q hq. rewrite h by lia. cbn [update BlockModel.cells]. destruct (Nat.eqb_spec q (next m)); [lia|reflexivity].
  - cbn [helper_alloc]. unfold is_failure, memory_error at 1. cbn [s_id]. rewrite (proj2 (Z.eqb_neq _ _)) by exact hid. cbn [negb].
    destruct (free_all_ok register m hd) as (m' & e & h); [intros p hp; destruct (hr p hp) as (k1 & k2 & _); auto|]. rewrite e. cbn [bind]. exists samples, m'. split; [reflexivity|].
    intros q hq. rewrite h, hm. reflexivity.
Qed.
Lemma block_new_failure memory_id ok cc size out m : memory_id <> 0%Z -> cc <= length (b_samples out) -> (exists j, j < cc /\ ok j = false) ->
  exists b m', block_new V zero memory_id ok cc size out m = Some (memory_error memory_id, b, m') /\ b_size b = b_size out /\
    (forall q, q < next m -> cells m' q = cells m q).
Proof.
  intros hid hl (j & h1 & h2). destruct (new_loop_failure memory_id size ok cc hid 0 None [] (b_samples out) m m) as (s & m' & e & h).
  - exact hl.
  - exists j. split; [lia|exact h2].
  - constructor.
  - intros p [].
  - intros q. reflexivity.
  - unfold block_new. rewrite e. cbn [bind]. unfold is_failure, memory_error at 1. cbn [s_id]. rewrite (proj2 (Z.eqb_neq _ _)) by exact hid. cbn [negb]. eexists. exists m'. split; [reflexivity|]. auto.
Qed.

(** freeing *)
Lemma block_free_ok b m address : b_size b <> 0 -> owns V m b address ->
  exists m', block_free V b m = Some m' /\ (forall c, c < b_channels b -> cells m' (address c) = None) /\ unchanged_but V m m' (b_channels b) address.
Proof.
  intros hs ho. unfold block_free. rewrite (proj2 (Nat.eqb_neq _ _)) by exact hs.
  destruct (for_inv (fun k m' => (forall c, c < k -> cells m' (address c) = None) /\ unchanged_but V m m' k address)
    (fun i m => p <- channel b i ;; free V m p) 0 (b_channels b) m) as (m' & e & h1 & h2); [lia|split; [intros; lia|intros q _; reflexivity]| |exists m'; auto].
  intros i m1 hi (k1 & k2). destruct (ho i ltac:(lia)) as (o1 & (a & o2 & _) & o3). rewrite o1. cbn [bind]. unfold free. cbn [snd fst Nat.eqb need bind].
  rewrite k2; [rewrite o2; cbn [bind]|intros c hc e; specialize (o3 c ltac:(lia) e); lia]. eexists. split; [reflexivity|]. split.
  - intros c hc. cbn [update BlockModel.cells]. destruct (Nat.eqb_spec (address c) (address i)); [reflexivity|]. apply k1. destruct (Nat.eq_dec c i); [subst; contradiction|lia].
  - intros q hq. cbn [update BlockModel.cells]. destruct (Nat.eqb_spec q (address i)) as [->|]; [exfalso; apply (hq i); [lia|reflexivity]|]. apply k2. intros c hc. apply hq. lia.
Qed.
Lemma with_offset_ok b offset : (forall c, c < b_channels b -> channel b c <> None) ->
  exists b', with_offset b offset = Some b' /\ b_size b' = b_size b /\ b_channels b' = b_channels b /\
    forall (m : mem) c i, c < b_channels b -> sample_at V m b' c i = sample_at V m b c (offset + i).
Proof.
  intros h. unfold with_offset.
  destruct (for_inv (fun k s => forall c, (p <- aget s c ;; p) = if c <? k then option_map (fun p => (fst p, snd p + offset)) (channel b c) else channel b c)
    (fun i s => p <- aget s i ;; p <- p ;; aset s i (Some (fst p, snd p + offset))) 0 (b_channels b) (b_samples b)) as (s & e & hs); [lia|intros c; reflexivity| |].
  - intros i s hi hp. pose proof (hp i) as hpi. rewrite (proj2 (Nat.ltb_ge i i)) in hpi by lia. destruct (channel b i) as [p|] eqn:ec; [|exfalso; apply (h i); [lia|exact ec]].
    destruct (aget s i) as [[p'|]|] eqn:ei; cbn [bind] in *; try discriminate. injection hpi as ->. assert (hi2 : i < length s) by (apply nth_error_Some; unfold aget in ei; rewrite ei; discriminate).
    destruct (aset_some s i (Some (fst p, snd p + offset))) as [s' es]; [exact hi2|]. exists s'. split; [exact es|]. intros c. unfold aget. rewrite (aset_get _ _ _ _ c es). destruct (Nat.eqb_spec c i) as [->|hne].
    + rewrite (proj2 (Nat.ltb_lt i (S i))) by lia. rewrite ec. reflexivity.
    + specialize (hp c). unfold aget in hp. rewrite hp. destruct (Nat.ltb_spec c i), (Nat.ltb_spec c (S i)); auto; lia.
  - rewrite e. cbn [bind]. eexists. split; [reflexivity|]. cbn [b_size b_channels]. splits; auto. intros m c i hc. unfold sample_at. unfold channel at 1. cbn [b_samples]. rewrite hs, (proj2 (Nat.ltb_lt _ _)) by exact hc.
    destruct (channel b c) as [p|]; [|reflexivity]. cbn [option_map bind]. unfold load. cbn [fst snd]. rewrite Nat.add_assoc. reflexivity.
Qed.

(** memory operations *)
Lemma store_ok m p i x a : cells m (fst p) = Some a -> snd p + i < length a ->
  exists m' a', store V m p i x = Some m' /\ aset a (snd p + i) x = Some a' /\ cells m' (fst p) = Some a' /\ (forall q, q <> fst p -> cells m' q = cells m q).
Proof.
  intros h hl. unfold store. rewrite h. cbn [bind]. destruct (aset_some a (snd p + i) x hl) as [a' e]. rewrite e. cbn [bind]. eexists. exists a'. splits; auto.
  - cbn. rewrite Nat.eqb_refl. reflexivity.
  - intros q hq. cbn. destruct (Nat.eqb_spec q (fst p)); [contradiction|reflexivity].
Qed.
(** writing the first [n] samples of one channel *)
Lemma fill_channel m p a n (f : nat -> V) : cells m (fst p) = Some a -> snd p + n <= length a ->
  exists m' a', for_ 0 n (fun i m => store V m p i (f i)) m = Some m' /\ cells m' (fst p) = Some a' /\ length a' = length a /\
    (forall i, nth_error a' i = if (snd p <=? i) && (i <? snd p + n) then Some (f (i - snd p)) else nth_error a i) /\ (forall q, q <> fst p -> cells m' q = cells m q).
Proof.
  intros h hl. destruct (for_inv (fun k m' => exists a', cells m' (fst p) = Some a' /\ length a' = length a /\
      (forall i, nth_error a' i = if (snd p <=? i) && (i <? snd p + k) then Some (f (i - snd p)) else nth_error a i) /\ (forall q, q <> fst p -> cells m' q = cells m q))
    (fun i m => store V m p i (f i)) 0 n m) as (m' & e & a' & h1 & h2 & h3 & h4); [lia| | |exists m', a'; auto].
  - exists a. splits; auto. intros i. destruct (Nat.leb_spec (snd p) i), (Nat.ltb_spec i (snd p + 0)); cbn [andb]; auto; lia.
  - intros k m1 hk (a1 & k1 & k2 & k3 & k4). destruct (store_ok m1 p k (f k) a1 k1) as (m2 & a2 & e1 & e2 & e3 & e4); [lia|]. exists m2. split; [exact e1|]. exists a2. splits; auto.
    + rewrite (aset_length _ _ _ _ e2). exact k2.
    + intros i. rewrite (aset_get _ _ _ _ i e2), k3. destruct (Nat.eqb_spec i (snd p + k)) as [->|].
      * rewrite (proj2 (Nat.leb_le _ _)), (proj2 (Nat.ltb_lt _ _)) by lia. cbn [andb]. do 2 f_equal. lia.
      * destruct (Nat.leb_spec (snd p) i), (Nat.ltb_spec i (snd p + k)), (Nat.ltb_spec i (snd p + S k)); cbn [andb]; auto; lia.
    + intros q hq. rewrite e4, k4 by exact hq. reflexivity.
Qed.
Lemma block_zero_ok b m address : owns V m b address ->
  exists m', block_zero V zero b m = Some m' /\ unchanged_but V m m' (b_channels b) address /\
    forall c i, c < b_channels b -> sample_at V m' b c i = if i <? b_size b then Some zero else sample_at V m b c i.
Proof.
  intros ho. unfold block_zero.
  destruct (for_inv (fun k m' => unchanged_but V m m' k address /\ forall c, c < k -> exists a a', cells m (address c) = Some a /\ cells m' (address c) = Some a' /\ length a' = length a /\
      forall i, nth_error a' i = if i <? b_size b then Some zero else nth_error a i)
    (fun c m => p <- channel b c ;; for_ 0 (b_size b) (fun i m => store V m p i zero) m) 0 (b_channels b) m) as (m' & e & h1 & h2); [lia|split; [intros q _; reflexivity|intros; lia]| |].
  - intros c m1 hc (k1 & k2). destruct (ho c ltac:(lia)) as (o1 & (a & o2 & o4) & o3). rewrite o1. cbn [bind].
    assert (hca : cells m1 (address c) = Some a) by (rewrite k1; [exact o2|intros c' hc' e; specialize (o3 c' ltac:(lia) e); lia]).
    destruct (fill_channel m1 (address c, 0) a (b_size b) (fun _ => zero) hca) as (m2 & a2 & e2 & f1 & f2 & f3 & f4); [cbn; lia|]. exists m2. split; [exact e2|]. cbn [fst snd] in *. split.
    + intros q hq. rewrite f4 by (apply hq; lia). apply k1. intros c' hc'. apply hq. lia.
    + intros c' hc'. destruct (Nat.eq_dec c' c) as [->|hne].
      * exists a, a2. splits; auto.
      * destruct (k2 c' ltac:(lia)) as (b1 & b2 & x1 & x2 & x3 & x4). exists b1, b2. splits; auto. rewrite f4; [exact x2|]. intros e3. symmetry in e3. specialize (o3 c' ltac:(lia) e3). lia.
  - exists m'. splits; auto. intros c i hc. destruct (h2 c hc) as (a & a' & x1 & x2 & x3 & x4). destruct (ho c hc) as (o1 & _ & _). unfold sample_at. rewrite o1. cbn [bind]. unfold load. cbn [fst snd Nat.add]. rewrite x1, x2. cbn [bind]. apply x4.
Qed.
(** copying between separate blocks *)
Lemma block_copy_ok a b m A B : owns V m a A -> owns V m b B -> b_channels a <= b_channels b -> b_size a <= b_size b ->
  (forall c c', c < b_channels a -> c' < b_channels b -> A c <> B c') ->
  exists m', block_copy V a b m = Some m' /\ unchanged_but V m m' (b_channels a) B /\
    forall c i, c < b_channels b -> sample_at V m' b c i = if (c <? b_channels a) && (i <? b_size a) then sample_at V m a c i else sample_at V m b c i.
Proof.
  intros ha hb hc hs hsep. unfold block_copy.
  destruct (for_inv (fun k m' => unchanged_but V m m' k B /\ forall c, c < k -> exists x y x', cells m (A c) = Some x /\ cells m (B c) = Some y /\ cells m' (B c) = Some x' /\ length x' = length y /\
      forall i, nth_error x' i = if i <? b_size a then nth_error x i else nth_error y i)
    (fun c m => for_ 0 (b_size a) (fun i m => p <- channel b c ;; q <- channel a c ;; x <- load V m q i ;; store V m p i x) m) 0 (b_channels a) m) as (m' & e & h1 & h2); [lia|split; [intros q _; reflexivity|intros; lia]| |].
  - intros c m1 hcc (k1 & k2). destruct (ha c ltac:(lia)) as (o1 & (x & o2 & o4) & o3). destruct (hb c ltac:(lia)) as (p1 & (y & p2 & p4) & p3).
    assert (hy : cells m1 (B c) = Some y) by (rewrite k1; [exact p2|intros c' hc' e; specialize (p3 c' ltac:(lia) e); lia]).
    assert (hx : cells m1 (A c) = Some x) by (rewrite k1; [exact o2|intros c' hc'; apply hsep; lia]).
    destruct (for_inv (fun k m' => cells m' (A c) = Some x /\ exists y', cells m' (B c) = Some y' /\ length y' = length y /\
        (forall i, nth_error y' i = if i <? k then nth_error x i else nth_error y i) /\ (forall q, q <> B c -> cells m' q = cells m1 q))
      (fun i m => p <- channel b c ;; q <- channel a c ;; x <- load V m q i ;; store V m p i x) 0 (b_size a) m1) as (m2 & e2 & f0 & y' & f1 & f2 & f3 & f4); [lia| | |].
    + split; [exact hx|]. exists y. splits; auto.
    + intros i m3 hi (g0 & y3 & g1 & g2 & g3 & g4). rewrite p1, o1. cbn [bind]. unfold load. cbn [fst snd Nat.add]. rewrite g0. cbn [bind].
      destruct (nth_error_some x i) as [v ev]; [lia|]. unfold aget. rewrite ev. cbn [bind].
      destruct (store_ok m3 (B c, 0) i v y3 g1) as (m4 & y4 & s1 & s2 & s3 & s4); [cbn; lia|]. cbn [fst snd Nat.add] in *. exists m4. split; [exact s1|].
      assert (hAB : A c <> B c) by (apply hsep; lia). split; [rewrite s4 by exact hAB; exact g0|]. exists y4. splits; auto.
      * rewrite (aset_length _ _ _ _ s2). exact g2.
      * intros j. rewrite (aset_get _ _ _ _ j s2). destruct (Nat.eqb_spec j i) as [->|].
        -- rewrite (proj2 (Nat.ltb_lt i (S i))) by lia. auto.
        -- rewrite g3. destruct (Nat.ltb_spec j i), (Nat.ltb_spec j (S i)); auto; lia.
      * intros q hq. rewrite s4, g4 by exact hq. reflexivity.
    + exists m2. split; [exact e2|]. split.
      * intros q hq. rewrite f4 by (apply hq; lia). apply k1. intros c' hc'. apply hq. lia.
      * intros c' hc'. destruct (Nat.eq_dec c' c) as [->|hne].
        -- exists x, y, y'. splits; auto.
        -- destruct (k2 c' ltac:(lia)) as (b1 & b2 & b3 & z1 & z2 & z3 & z4 & z5). exists b1, b2, b3. splits; auto. rewrite f4; [exact z3|]. intros e3. symmetry in e3. specialize (p3 c' ltac:(lia) e3). lia.
  - exists m'. splits; auto. intros c i hcb. destruct (hb c hcb) as (p1 & (y & p2 & p4) & p3). destruct (Nat.ltb_spec c (b_channels a)) as [hca|hca].
    + destruct (h2 c hca) as (x & y1 & x' & z1 & z2 & z3 & z4 & z5). destruct (ha c hca) as (o1 & _ & _). unfold sample_at. rewrite p1, o1. cbn [bind]. unfold load. cbn [fst snd Nat.add]. rewrite z1, z2, z3. cbn [bind andb].
      unfold aget. rewrite z5. destruct (i <? b_size a); reflexivity.
    + cbn [andb]. unfold sample_at. rewrite p1. cbn [bind]. unfold load. cbn [fst]. rewrite h1; [reflexivity|]. intros c' hc' e3. specialize (p3 c' ltac:(lia) e3). lia.
Qed.
End Blocks.
