From Verif Require Import Base CombProofs SeqModel SeqSpec SeqLifeSpec SeqRenderSpec EvModel EvSpec EvProofs.
Open Scope nat_scope.

Lemma mapi_length {A} (f : nat -> A -> A) l : forall t, length (mapi f t l) = length l.
Proof. induction l; intros t; cbn; auto. Qed.
Lemma mapi_app {A} (f : nat -> A -> A) l m : forall t, mapi f t (l ++ m) = mapi f t l ++ mapi f (t + length l) m.
Proof.
  induction l; intros t; cbn [mapi app length]; [rewrite Nat.add_0_r; reflexivity|]. rewrite IHl. replace (S t + length l) with (t + S (length l)) by lia. reflexivity.
Qed.
Lemma mapi_mapi {A} (f g : nat -> A -> A) l : forall t, mapi g t (mapi f t l) = mapi (fun i x => g i (f i x)) t l.
Proof. induction l; intros t; cbn [mapi]; [reflexivity|]. rewrite IHl. reflexivity. Qed.
Lemma mapi_ext {A} (f g : nat -> A -> A) l : forall t, (forall i x, t <= i < t + length l -> f i x = g i x) -> mapi f t l = mapi g t l.
Proof.
  induction l; intros t h; cbn [mapi]; [reflexivity|]. cbn [length] in h. rewrite h by lia. f_equal. apply IHl. intros i x hi. apply h. lia.
Qed.

Section Wave.
Variable V : Type.
Variables add mul : V -> V -> V.
Variable silence : V.
Notation channel_t := (wave_channel V).
Notation config := (wave_config V).

(** phase after [n] samples from [i] on, with the sums of the program *)
Fixpoint xphase (size : Z) (cc : channel_t) (i n : nat) (p : Z) : Z :=
  match n with
  | O => p
  | S n => (u32 (xphase size cc i n p + match fmod _ cc with Some l => u32 (frq _ cc + nth (i + n) l 0%Z) | None => frq _ cc end) mod size)%Z
  end.
Definition xindex (size : Z) (cc : channel_t) (first i : nat) (p : Z) : Z :=
  match pmod _ cc with
  | Some l => (u32 (xphase size cc first (i - first) p + nth i l 0%Z) mod size)%Z
  | None => xphase size cc first (i - first) p
  end.
Definition xvalue (c : config) (cc : channel_t) (first i : nat) (p : Z) : V :=
  mul (mul (amp _ cc) (nth i (match amod _ cc with Some l => l | None => [] end) silence)) (nth (Z.to_nat (xindex (wvf_size _ c) cc first i p)) (wvf _ c) silence).
Definition valid_channel (channels n : nat) (size : Z) (cc : channel_t) : Prop :=
  channel _ cc < channels /\ (exists l, amod _ cc = Some l /\ n <= length l) /\ covers (fmod _ cc) n /\ covers (pmod _ cc) n /\
    (0 <= phs _ cc < size)%Z /\ (0 <= frq _ cc < 65536)%Z.

Lemma wrap_mod p size : (0 < size)%Z -> (0 <= p)%Z -> wrap p size = Some (p mod size)%Z.
Proof.
  intros hs hp. unfold wrap. destruct (Z.leb_spec size p).
  - destruct (Z.eqb_spec size 0); [lia|reflexivity].
  - rewrite Z.mod_small by lia. reflexivity.
Qed.
Lemma xphase_range size cc i n p : (0 < size)%Z -> (0 <= p < size)%Z -> (0 <= xphase size cc i n p < size)%Z.
Proof. intros hs hp. destruct n; cbn [xphase]; [exact hp|]. apply Z.mod_pos_bound. exact hs. Qed.
Lemma xphase_add size cc i n m p : xphase size cc i (n + m) p = xphase size cc (i + n) m (xphase size cc i n p).
Proof.
  induction m; cbn [xphase]; [rewrite Nat.add_0_r; reflexivity|]. rewrite Nat.add_succ_r. cbn [xphase]. rewrite IHm, Nat.add_assoc. reflexivity.
Qed.
Lemma u32_nn x : (0 <= u32 x)%Z. Proof. apply u32_range. Qed.
Lemma nth_error_nth_some {A} (l : list A) i d : i < length l -> nth_error l i = Some (nth i l d).
Proof. intros h. apply nth_error_nth'. exact h. Qed.

Lemma inner_loop channels start c cc o : forall p rest n, (0 < wvf_size _ c)%Z -> wvf_size _ c = Z.of_nat (length (wvf _ c)) ->
  valid_channel channels n (wvf_size _ c) cc -> start + length o <= n -> (0 <= p < wvf_size _ c)%Z ->
  for_ start (start + length o) (wave_sample V add mul channels start c cc) (o ++ rest, p) =
  Some (mapi (fun i f => frame_add V add f (channel _ cc) (xvalue c cc start i p)) start o ++ rest, xphase (wvf_size _ c) cc start (length o) p).
Proof.
  induction o as [|x o IH] using rev_ind; intros p rest n hs hw hv hn hp.
  - cbn [length]. rewrite for_empty by lia. reflexivity.
  - rewrite app_length in *. cbn [length] in *. rewrite (for_split _ start (start + length o)) by lia.
    rewrite <- app_assoc. rewrite (IH p ([x] ++ rest) n); auto; [|lia]. cbn [bind].
    unfold for_. replace (start + (length o + 1) - (start + length o)) with 1 by lia. cbn [for_from].
    pose proof (xphase_range (wvf_size _ c) cc start (length o) p hs hp) as hxp.
    set (q := xphase (wvf_size _ c) cc start (length o) p) in *.
    destruct hv as (v1 & (am & v2 & v3) & v4 & v5 & v6 & v7).
    unfold wave_sample at 1.
    assert (hpm : exists pm, optional (pmod _ cc) (start + length o) = Some pm /\
      match pm with Some m => wrap (u32 (q + m)) (wvf_size V c) | None => Some q end = Some (xindex (wvf_size _ c) cc start (start + length o) p)).
    { unfold optional, xindex. replace (start + length o - start) with (length o) by lia. fold q. destruct (pmod _ cc) as [l|]; cbn in v5.
      - unfold aget. rewrite (nth_error_nth_some l _ 0%Z) by lia. cbn [bind]. eexists. split; [reflexivity|]. apply wrap_mod; [exact hs|apply u32_nn].
      - eexists. split; reflexivity. }
    destruct hpm as (pm & e1 & e2). rewrite e1. cbn [bind]. rewrite e2. cbn [bind].
    destruct (Nat.ltb_spec (channel _ cc) channels); [|lia]. cbn [need bind].
    replace (start + length o - start) with (length o) by lia.
    set (g := fun i f => frame_add V add f (channel _ cc) (xvalue c cc start i p)).
    pose proof (mapi_length g o start) as hml.
    assert (eg : aget (mapi g start o ++ [x] ++ rest) (length o) = Some x).
    { unfold aget. rewrite nth_error_app2 by lia. rewrite hml, Nat.sub_diag. reflexivity. }
    rewrite eg. cbn [bind]. rewrite v2. cbn [bind]. unfold aget at 1. rewrite (nth_error_nth_some am _ silence) by lia. cbn [bind].
    assert (hidx : (0 <= xindex (wvf_size _ c) cc start (start + length o) p < wvf_size _ c)%Z).
    { unfold xindex. destruct (pmod _ cc); [apply Z.mod_pos_bound; exact hs|]. apply xphase_range; auto. }
    unfold aget at 1. rewrite (nth_error_nth_some (wvf _ c) _ silence) by lia. cbn [bind].
    assert (es : forall y, aset (mapi g start o ++ [x] ++ rest) (length o) y = Some (mapi g start o ++ [y] ++ rest)).
    { intros y. rewrite <- hml. clear. induction (mapi g start o); cbn; [reflexivity|]. cbn in IHl. rewrite IHl. reflexivity. }
    rewrite es. cbn [bind].
    assert (hfm : exists fm, optional (fmod _ cc) (start + length o) = Some fm /\
      match fm with Some m => u32 (frq V cc + m) | None => frq V cc end =
      match fmod _ cc with Some l => u32 (frq _ cc + nth (start + length o) l 0%Z) | None => frq _ cc end).
    { unfold optional. destruct (fmod _ cc) as [l|]; cbn in v4.
      - unfold aget. rewrite (nth_error_nth_some l _ 0%Z) by lia. cbn [bind]. eexists. split; reflexivity.
      - eexists. split; reflexivity. }
    destruct hfm as (fm & e3 & e4). rewrite e3. cbn [bind]. rewrite e4. rewrite wrap_mod by (auto; apply u32_nn). cbn [bind].
    rewrite mapi_app. cbn [mapi]. rewrite <- app_assoc. replace (length o + 1) with (S (length o)) by lia. cbn [xphase]. fold q.
    f_equal. f_equal. f_equal. cbn [app]. f_equal. unfold g, xvalue. rewrite v2. reflexivity.
Qed.

(** ** all channels *)
Definition xchannels (size : Z) (start n : nat) (l : list channel_t) : list channel_t :=
  map (fun cc => set_phs V cc (xphase size cc start n (phs _ cc))) l.
Definition xstage (c : config) (start : nat) (l : list channel_t) : nat -> frame V -> frame V :=
  fun i f => fold_left (fun f cc => frame_add V add f (channel _ cc) (xvalue c cc start i (phs _ cc))) l f.
Definition xconfig (c : config) (start n : nat) : config :=
  set_channels V c (xchannels (wvf_size _ c) start n (firstn (channel_count _ c) (channel_config _ c)) ++ skipn (channel_count _ c) (channel_config _ c)).

Lemma aset_at {A} (l1 : list A) x y l2 : aset (l1 ++ x :: l2) (length l1) y = Some (l1 ++ y :: l2).
Proof. induction l1; cbn; [reflexivity|]. cbn in IHl1. rewrite IHl1. reflexivity. Qed.
Lemma skipn_nth {A} (l : list A) i x : nth_error l i = Some x -> skipn i l = x :: skipn (S i) l.
Proof. revert i. induction l as [|y l IH]; intros [|i] h; cbn in *; try discriminate; [congruence|]. rewrite (IH _ h). reflexivity. Qed.
Lemma firstn_snoc {A} (l : list A) n x : nth_error l n = Some x -> firstn (S n) l = firstn n l ++ [x].
Proof. revert n. induction l as [|h t IH]; intros [|n] e; cbn in *; try discriminate; [congruence|]. f_equal. apply IH. exact e. Qed.

Lemma wave_generate_exact channels start o rest n c : wave_valid V channels n c -> start + length o <= n ->
  wave_generate V add mul channels start (start + length o) (o ++ rest) c =
  Some (mapi (xstage c start (firstn (channel_count _ c) (channel_config _ c))) start o ++ rest, xconfig c start (length o)).
Proof.
  intros (w1 & w2 & w3 & w4) hn. unfold wave_generate.
  set (L := channel_config _ c) in *. set (k := channel_count _ c) in *.
  match goal with |- context [for_ 0 k ?body _] => destruct (for_inv (fun i '(out, l) =>
    out = mapi (xstage c start (firstn i L)) start o ++ rest /\ l = xchannels (wvf_size _ c) start (length o) (firstn i L) ++ skipn i L) body 0 k (o ++ rest, L)) as [[out l] [e [e1 e2]]] end.
  - lia.
  - cbn [firstn skipn xchannels map app]. split; auto. f_equal. unfold xstage. cbn [fold_left]. clear. revert start. induction o; intros t; cbn [mapi]; [reflexivity|]. f_equal. auto.
  - intros i [out l] hi [e1 e2]. destruct (nth_error_some L i) as [cc hcc]; [lia|].
    assert (hl : length (xchannels (wvf_size V c) start (length o) (firstn i L)) = i) by (unfold xchannels; rewrite map_length, firstn_length; lia).
    rewrite (skipn_nth _ _ _ hcc) in e2.
    assert (eg : aget l i = Some cc).
    { subst l. unfold aget. rewrite nth_error_app2 by lia. rewrite hl, Nat.sub_diag. reflexivity. }
    rewrite eg. cbn [bind].
    assert (hv : valid_channel channels n (wvf_size _ c) cc).
    { rewrite Forall_forall in w4. apply w4. apply nth_error_In with i. rewrite nth_error_firstn by lia. exact hcc. }
    pose proof (inner_loop channels start c cc (mapi (xstage c start (firstn i L)) start o) (phs _ cc) rest n (proj1 w3) w2 hv) as hin. rewrite mapi_length in hin.
    subst out. rewrite hin; [|exact hn|destruct hv as (_ & _ & _ & _ & hv & _); exact hv]. cbn [bind].
    eexists. split.
    + assert (es : forall y, aset l i y = Some (xchannels (wvf_size V c) start (length o) (firstn i L) ++ y :: skipn (S i) L)).
      { intros y. subst l. pose proof (aset_at (xchannels (wvf_size V c) start (length o) (firstn i L)) cc y (skipn (S i) L)) as ha. rewrite hl in ha. exact ha. }
      rewrite es. reflexivity.
    + cbn beta. split.
      * rewrite mapi_mapi. f_equal. apply mapi_ext. intros j f _. rewrite (firstn_snoc _ _ _ hcc). unfold xstage. rewrite fold_left_app. reflexivity.
      * rewrite (firstn_snoc _ _ _ hcc). unfold xchannels. rewrite map_app, <- app_assoc. reflexivity.
  - rewrite e. cbn [bind]. subst. reflexivity.
Qed.

Lemma xconfig_valid channels n c start k : wave_valid V channels n c -> wave_valid V channels n (xconfig c start k).
Proof.
  intros (w1 & w2 & w3 & w4). unfold wave_valid, xconfig, set_channels. cbn [channel_count channel_config wvf wvf_size].
  assert (hl : length (xchannels (wvf_size V c) start k (firstn (channel_count V c) (channel_config V c))) = channel_count _ c) by (unfold xchannels; rewrite map_length, firstn_length; lia).
  splits; auto; try lia.
  - rewrite app_length, hl. lia.
  - rewrite firstn_app, hl, Nat.sub_diag, firstn_O, app_nil_r. rewrite <- hl at 1. rewrite firstn_all. unfold xchannels.
    apply Forall_forall. intros cc hcc. apply in_map_iff in hcc. destruct hcc as (cc' & <- & hin). rewrite Forall_forall in w4. specialize (w4 _ hin).
    destruct w4 as (k1 & k2 & k3 & k4 & k5 & k6). cbn. splits; auto; try lia; apply xphase_range; lia.
Qed.
Lemma xconfig_channels c start k : channel_count V c <= length (channel_config V c) ->
  firstn (channel_count _ (xconfig c start k)) (channel_config _ (xconfig c start k)) = xchannels (wvf_size _ c) start k (firstn (channel_count _ c) (channel_config _ c)) /\
  skipn (channel_count _ (xconfig c start k)) (channel_config _ (xconfig c start k)) = skipn (channel_count _ c) (channel_config _ c).
Proof.
  intros h. unfold xconfig, set_channels. cbn [channel_count channel_config].
  assert (hl : length (xchannels (wvf_size V c) start k (firstn (channel_count V c) (channel_config V c))) = channel_count _ c) by (unfold xchannels; rewrite map_length, firstn_length; lia).
  split.
  - rewrite firstn_app, hl, Nat.sub_diag, firstn_O, app_nil_r. rewrite <- hl at 1. apply firstn_all.
  - rewrite skipn_app, hl, Nat.sub_diag, skipn_O. rewrite <- hl at 1. rewrite skipn_all. reflexivity.
Qed.
Lemma xphase_set_phs size cc i n p q : xphase size (set_phs V cc q) i n p = xphase size cc i n p.
Proof. induction n; cbn [xphase]; [reflexivity|]. rewrite IHn. reflexivity. Qed.
Lemma xindex_set_phs size cc first i p q : xindex size (set_phs V cc q) first i p = xindex size cc first i p.
Proof. unfold xindex. rewrite xphase_set_phs. reflexivity. Qed.
Lemma xindex_later size cc first mid i p : first <= mid <= i -> xindex size cc mid i (xphase size cc first (mid - first) p) = xindex size cc first i p.
Proof.
  intros h. unfold xindex.
  assert (e : xphase size cc mid (i - mid) (xphase size cc first (mid - first) p) = xphase size cc first (i - first) p).
  { replace (i - first) with ((mid - first) + (i - mid)) by lia. rewrite xphase_add. replace (first + (mid - first)) with mid by lia. reflexivity. }
  rewrite e. reflexivity.
Qed.
Lemma xstage_later c start mid k l i f : start <= mid <= i -> k = mid - start ->
  xstage (xconfig c start k) mid (xchannels (wvf_size _ c) start k l) i f = xstage c start l i f.
Proof.
  intros h ->. unfold xstage, xchannels. revert f. induction l as [|cc l IH]; intros f; cbn [map fold_left]; [reflexivity|].
  rewrite <- IH. f_equal. cbn [channel set_phs phs]. f_equal. unfold xvalue. cbn [amp amod set_phs wvf wvf_size xconfig set_channels].
  rewrite xindex_set_phs, xindex_later by lia. reflexivity.
Qed.
Lemma xconfig_later c start mid k1 k2 : channel_count V c <= length (channel_config V c) -> mid = start + k1 -> xconfig (xconfig c start k1) mid k2 = xconfig c start (k1 + k2).
Proof.
  intros h ->. destruct (xconfig_channels c start k1 h) as [e1 e2]. unfold xconfig at 1. rewrite e1, e2. unfold xconfig, set_channels. cbn [wvf wvf_size channel_count channel_config].
  f_equal. f_equal. unfold xchannels. rewrite map_map. apply map_ext. intros cc. unfold set_phs at 1. cbn [amod amp channel fmod frq phs pmod use set_phs].
  fold (set_phs V cc (xphase (wvf_size V c) cc start k1 (phs V cc))). rewrite xphase_set_phs. rewrite xphase_add. reflexivity.
Qed.

Lemma wave_partition channels start mid end_ o1 o2 rest c : wave_valid V channels end_ c -> start <= mid <= end_ -> length o1 = mid - start -> length o2 = end_ - mid ->
  exists c1 c2 o1' o2', wave_generate V add mul channels start mid (o1 ++ o2 ++ rest) c = Some (o1' ++ o2 ++ rest, c1) /\
    wave_generate V add mul channels mid end_ (o2 ++ rest) c1 = Some (o2' ++ rest, c2) /\
    wave_generate V add mul channels start end_ (o1 ++ o2 ++ rest) c = Some (o1' ++ o2' ++ rest, c2).
Proof.
  intros hv hm h1 h2. pose proof hv as (w1 & _).
  pose proof (wave_generate_exact channels start o1 (o2 ++ rest) end_ c hv ltac:(lia)) as e1.
  pose proof (xconfig_valid channels end_ c start (length o1) hv) as hv1.
  pose proof (wave_generate_exact channels mid o2 rest end_ _ hv1 ltac:(lia)) as e2.
  pose proof (wave_generate_exact channels start (o1 ++ o2) rest end_ c hv ltac:(rewrite app_length; lia)) as e3.
  rewrite app_length in e3. replace (start + length o1) with mid in * by lia. replace (mid + length o2) with end_ in * by lia.
  replace (start + (length o1 + length o2)) with end_ in e3 by lia. rewrite <- app_assoc in e3.
  eexists _, _, _, _. split; [exact e1|]. split; [exact e2|]. rewrite e3. f_equal. f_equal.
  - rewrite mapi_app, <- app_assoc. f_equal. f_equal. replace (start + length o1) with mid by lia. apply mapi_ext. intros i f hi.
    destruct (xconfig_channels c start (length o1) w1) as [-> _]. symmetry. apply xstage_later; lia.
  - symmetry. apply xconfig_later; auto. lia.
Qed.

(** ** without wrap around *)
Lemma frequency_sum_add cc i n m : frequency_sum V cc i (n + m) = (frequency_sum V cc i n + frequency_sum V cc (i + n) m)%Z.
Proof. induction m; cbn [frequency_sum]; [rewrite Nat.add_0_r; lia|]. rewrite Nat.add_succ_r. cbn [frequency_sum]. rewrite IHm, Nat.add_assoc. lia. Qed.
Lemma modulation_range a n i : covers a n -> (0 <= modulation a i < two32)%Z.
Proof.
  unfold covers, modulation. destruct a as [l|]; [|unfold two32; lia]. intros [_ h]. destruct (Nat.lt_ge_cases i (length l)).
  - rewrite Forall_forall in h. apply h. apply nth_In. exact H.
  - rewrite nth_overflow by lia. unfold two32. lia.
Qed.
Lemma xphase_sum size cc i n N p : (0 < size < two32)%Z -> covers (fmod _ cc) N -> (0 <= frq V cc < 65536)%Z -> (0 <= p < size)%Z ->
  (forall j, size + frq _ cc + modulation (fmod _ cc) j <= two32)%Z ->
  xphase size cc i n p = ((p + frequency_sum V cc i n) mod size)%Z.
Proof.
  intros hs hc hf hp hm. induction n; cbn [xphase frequency_sum]; [rewrite Z.add_0_r, Z.mod_small by lia; reflexivity|].
  pose proof (xphase_range size cc i n p (proj1 hs) hp) as hx. specialize (hm (i + n)). pose proof (modulation_range _ _ (i + n) hc) as hr.
  assert (e : match fmod V cc with Some l => u32 (frq V cc + nth (i + n) l 0%Z) | None => frq V cc end = (frq V cc + modulation (fmod V cc) (i + n))%Z).
  { unfold modulation in *. destruct (fmod V cc); [rewrite u32_small by lia; reflexivity|lia]. }
  rewrite e, u32_small by lia. rewrite IHn. rewrite Zplus_mod_idemp_l. f_equal. lia.
Qed.
Lemma xindex_sum size cc first i N p : (0 < size < two32)%Z -> covers (fmod _ cc) N -> covers (pmod _ cc) N -> (0 <= frq V cc < 65536)%Z -> p = phs V cc -> (0 <= p < size)%Z ->
  (forall j, size + frq _ cc + modulation (fmod _ cc) j <= two32 /\ size + modulation (pmod _ cc) j <= two32)%Z ->
  xindex size cc first i p = wave_index V size cc first i.
Proof.
  intros hs hc hc' hf hpp hp hm. unfold xindex, wave_index. rewrite (xphase_sum size cc first (i - first) N p) by (auto; intros j; apply hm).
  destruct (hm i) as [_ hmi]. pose proof (modulation_range _ _ i hc') as hr. unfold modulation in *. subst p.
  pose proof (Z.mod_pos_bound (phs V cc + frequency_sum V cc first (i - first)) size (proj1 hs)).
  destruct (pmod V cc) as [l|].
  - rewrite u32_small by lia. rewrite Zplus_mod_idemp_l. reflexivity.
  - rewrite Z.add_0_r. reflexivity.
Qed.
Lemma xstage_sum channels n c first i f : wave_valid V channels n c -> wave_small V c ->
  xstage c first (firstn (channel_count _ c) (channel_config _ c)) i f = wave_stage V add mul silence c first i f.
Proof.
  intros (w1 & w2 & w3 & w4) hs. unfold xstage, wave_stage. unfold wave_small in hs. revert w4 hs f. generalize (firstn (channel_count V c) (channel_config V c)). intros l.
  induction l as [|cc l IH]; intros w4 hs f; cbn [fold_left]; [reflexivity|]. inversion w4 as [|? ? (k1 & k2 & k3 & k4 & k5 & k6) w4']; subst. inversion hs as [|? ? hs1 hs']; subst.
  rewrite IH by auto. f_equal. f_equal. unfold xvalue, wave_value. rewrite (xindex_sum _ _ _ _ n) by auto. reflexivity.
Qed.
Lemma wave_generate_sum channels start o rest n c : wave_valid V channels n c -> wave_small V c -> start + length o <= n ->
  exists c', wave_generate V add mul channels start (start + length o) (o ++ rest) c = Some (mapi (wave_stage V add mul silence c start) start o ++ rest, c') /\
    wave_valid V channels n c'.
Proof.
  intros hv hs hn. rewrite (wave_generate_exact channels start o rest n c hv hn). eexists. split.
  - f_equal. f_equal. f_equal. apply mapi_ext. intros. apply (xstage_sum channels n); auto.
  - apply xconfig_valid. exact hv.
Qed.
End Wave.
