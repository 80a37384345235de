From Verif Require Import Base ConvolveModel ConvolveSpec ConvolveProofs FilterModel FilterSpec FilterProofs MiscModel RandModel EvModel EvSpec EvProofs NoiseModel NoiseSpec.
Open Scope nat_scope.

Lemma block_generate_parts res start end_ T (g : nat -> nat -> nat -> T -> option (T * bool)) s : start < end_ -> 0 < res ->
  block_generate T g res start end_ s = run_tiles T g (parts res (end_ - start)) 0 start s /\ list_sum (parts res (end_ - start)) = end_ - start /\
  Forall (fun n => 0 < n <= Nat.min res (end_ - start)) (parts res (end_ - start)).
Proof.
  intros h hr. set (d := end_ - start). set (m := Nat.min res d). assert (hd : 0 < d) by (subst d; lia). assert (hm : 0 < m) by (subst m; lia).
  unfold parts. fold m. pose proof (Nat.div_mod d m ltac:(lia)) as hdm. pose proof (Nat.mod_upper_bound d m ltac:(lia)) as hmm. splits.
  - unfold block_generate. destruct (Nat.leb_spec start end_); [|lia]. cbn [need bind]. fold d.
    replace (if d <? res then d else res) with m by (subst m; bd; lia).
    destruct (Nat.eqb_spec m 0); [lia|]. cbn [negb need bind].
    rewrite <- (Nat.add_0_l start) at 2. rewrite EvProofs.block_loop_tiles.
    destruct (block_loop T g (d / m) m start 0 s) as [[[s1 ok] i]|]; [|reflexivity]. cbn [bind]. destruct ok; [|reflexivity].
    destruct (d mod m =? 0); cbn [negb run_tiles]; [reflexivity|]. destruct (g _ i (i + start) s1) as [[s2 ok]|]; [|reflexivity]. cbn [bind]. destruct ok; reflexivity.
  - rewrite list_sum_app, EvProofs.list_sum_repeat. destruct (Nat.eqb_spec (d mod m) 0); cbn [list_sum fold_right]; lia.
  - apply Forall_app. split.
    + apply Forall_forall. intros x hx. apply repeat_spec in hx. subst x. lia.
    + destruct (Nat.eqb_spec (d mod m) 0); constructor; auto. lia.
Qed.

Lemma all_parts_ok res : 0 < res -> forall sizes, Forall (fun n => 0 < n) sizes -> list_sum (all_parts res sizes) = list_sum sizes /\ Forall (fun n => 0 < n) (all_parts res sizes) /\
  forall b, Forall (fun n => Nat.min res n <= b) sizes -> Forall (fun n => n <= b) (all_parts res sizes).
Proof.
  intros hr. induction sizes as [|n sizes IH]; intros hp; [repeat split; auto; constructor|]. inversion hp as [|? ? hn hp']; subst. destruct (IH hp') as (i1 & i2 & i3).
  unfold all_parts in *. cbn [map concat]. destruct (block_generate_parts res 0 n unit (fun _ _ _ _ => None) tt hn hr) as (_ & e & f). rewrite Nat.sub_0_r in *. splits.
  - rewrite list_sum_app, e, i1. reflexivity.
  - apply Forall_app. split; auto. eapply Forall_impl; [|exact f]. intros a q. cbn in q. lia.
  - intros b hb. inversion hb; subst. apply Forall_app. split; auto. eapply Forall_impl; [|exact f]. intros a q. cbn in q. lia.
Qed.

(** cuts at multiples of the interval *)
Lemma parts_multiple res k : 0 < res -> 0 < k -> parts res (k * res) = repeat res k.
Proof.
  intros h hk. unfold parts. rewrite (Nat.min_l res (k * res)) by (destruct k; [lia|cbn [Nat.mul]; lia]). rewrite Nat.div_mul by lia. rewrite Nat.mod_mul by lia. apply app_nil_r.
Qed.
Lemma parts_prefix res k n : 0 < res -> 0 < k -> 0 < n -> parts res (k * res) ++ parts res n = parts res (k * res + n).
Proof.
  intros h hk hn. rewrite parts_multiple by assumption. unfold parts. rewrite (Nat.min_l res (k * res + n)) by (destruct k; [lia|cbn [Nat.mul]; lia]).
  replace (k * res + n) with (n + k * res) by lia. rewrite Nat.div_add by lia. rewrite Nat.mod_add by lia. rewrite (Nat.add_comm (n / res)), repeat_app, <- app_assoc. f_equal.
  destruct (Nat.le_gt_cases res n).
  - rewrite Nat.min_l by lia. reflexivity.
  - rewrite Nat.min_r by lia. rewrite Nat.div_same by lia. rewrite Nat.mod_same by lia. rewrite Nat.div_small by lia. rewrite Nat.mod_small by lia. cbn. destruct (Nat.eqb_spec n 0); [lia|reflexivity].
Qed.
Lemma all_parts_multiples res : 0 < res -> forall sizes last, Forall (fun n => 0 < n /\ n mod res = 0) sizes -> 0 < last -> all_parts res (sizes ++ [last]) = parts res (list_sum sizes + last).
Proof.
  intros h. induction sizes as [|n sizes IH]; intros l hf hl.
  - cbn. unfold all_parts. cbn. apply app_nil_r.
  - inversion hf as [|? ? [h1 h2] hf']; subst. unfold all_parts in *. cbn [app map concat]. rewrite IH by assumption.
    change (list_sum (n :: sizes)) with (n + list_sum sizes). rewrite <- Nat.add_assoc.
    assert (n = (n / res) * res) as e. { pose proof (Nat.div_mod n res ltac:(lia)). lia. }
    rewrite e. assert (0 < n / res) by (destruct (n / res); lia). apply parts_prefix; lia.
Qed.
Section Proofs.
Variables (V R : Type).
Variables (zero : V) (add mul : V -> V -> V) (limit : V -> V).
Variable draw : R -> V * R.
Variable ir_f : nat -> list Z -> option (list V).
Variable pack : Z -> Z -> Z -> Z -> bool -> list Z.
Variable args_size : nat.
Hypothesis pack_len : forall a b c d e, length (pack a b c d e) = args_size.
Variable junk : nat -> list V.
Variable junkb : nat -> list Z.
Hypothesis junk_len : forall n, length (junk n) = n.
Hypothesis junkb_len : forall n, length (junkb n) = n.

Notation nchannel := (nchannel V).
Notation numbers := (numbers V R draw).
Notation white := (white V R draw).
Notation response := (response V ir_f pack).
Notation set_filter := (set_filter V).
Notation temps_t := (list (option (list V))).
Notation get_temp := (get_temp V).
Notation fill_noise := (fill_noise V R draw).
Notation filter_args := (filter_args V pack).
Notation apply_filter := (apply_filter V zero add mul ir_f pack junk junkb).
Notation convolution_filter := (convolution_filter V zero add mul ir_f (fun _ => true) junk junkb).
Notation outputs := (outputs V zero add mul).

(** ** numbers *)
Lemma numbers_length n : forall r, length (fst (numbers n r)) = n.
Proof.
  induction n; intros r; cbn [NoiseSpec.numbers]; [reflexivity|]. destruct (draw r) as [x r1]. specialize (IHn r1). destruct (numbers n r1). cbn in *. lia.
Qed.
Lemma numbers_add a b : forall r, numbers (a + b) r = (fst (numbers a r) ++ fst (numbers b (snd (numbers a r))), snd (numbers b (snd (numbers a r)))).
Proof.
  induction a; intros r; cbn [Nat.add NoiseSpec.numbers].
  - cbn. destruct (numbers b r); reflexivity.
  - destruct (draw r) as [x r1]. rewrite IHa. destruct (numbers a r1) as [l r2]. reflexivity.
Qed.
Lemma white_length r s n : length (white r s n) = n.
Proof. apply numbers_length. Qed.
Lemma white_app r s n m : white r s (n + m) = white r s n ++ white r (s + n) m.
Proof. unfold NoiseSpec.white. rewrite !numbers_add. reflexivity. Qed.

Lemma random_array_from lo : forall n r out, lo + n <= length out ->
  for_from lo n (fun i '(out, st) => '(x, st) <- Some (draw st) ;; out <- aset out i x ;; Some (out, st)) (out, r) =
  Some (firstn lo out ++ fst (numbers n r) ++ skipn (lo + n) out, snd (numbers n r)).
Proof.
  intros n. revert lo. induction n; intros lo r out h; cbn [for_from NoiseSpec.numbers].
  - cbn [fst snd app]. rewrite Nat.add_0_r, firstn_skipn. reflexivity.
  - cbn [bind]. destruct (draw r) as [x r1] eqn:e. destruct (aset_some out lo x ltac:(lia)) as (o & eo). rewrite eo. cbn [bind].
    pose proof (aset_length _ _ _ _ eo) as hl. rewrite IHn by lia. destruct (numbers n r1) as [l r2] eqn:en. cbn [fst snd].
    assert (length l = n) as hn. { rewrite <- (numbers_length n r1), en. reflexivity. }
    f_equal. f_equal. apply nth_error_ext. intros j.
    assert (length (firstn lo out) = lo) as h1 by (rewrite firstn_length; lia).
    assert (length (firstn (S lo) o) = S lo) as h2 by (rewrite firstn_length; lia).
    destruct (Nat.lt_ge_cases j lo).
    + rewrite !nth_error_app1 by lia. rewrite !nth_error_firstn by lia. rewrite (aset_get _ _ _ _ _ eo). bd; [lia|reflexivity].
    + destruct (Nat.eq_dec j lo) as [->|].
      * rewrite nth_error_app1 by lia. rewrite nth_error_firstn by lia. rewrite (aset_get _ _ _ _ _ eo). rewrite nth_error_app2 by lia. rewrite h1, Nat.sub_diag. bd; [reflexivity|lia].
      * rewrite (nth_error_app2 (firstn (S lo) o)) by lia. rewrite (nth_error_app2 (firstn lo out)) by lia. rewrite h1, h2. replace (j - lo) with (S (j - S lo)) by lia. cbn [app]. change (nth_error (x :: l ++ skipn (lo + S n) out) (S (j - S lo))) with (nth_error (l ++ skipn (lo + S n) out) (j - S lo)).
        destruct (Nat.lt_ge_cases (j - S lo) n).
        -- rewrite !nth_error_app1 by lia. reflexivity.
        -- rewrite !nth_error_app2 by lia. rewrite !nth_error_skipn, hn. rewrite (aset_get _ _ _ _ _ eo). bd; [lia|]. f_equal. lia.
Qed.
Lemma random_array_numbers n r out : n <= length out ->
  random_array (fun r => Some (draw r)) r n out = Some (fst (numbers n r) ++ skipn n out, snd (numbers n r)).
Proof.
  intros h. unfold random_array, for_. rewrite Nat.sub_0_r. rewrite (random_array_from 0 n r out h). reflexivity.
Qed.

(** ** one filter call *)
(** a filter state that has processed the segments [hist] with responses of the band filter *)
Definition ready (hist : list (list V * list V)) (st : option nat) (h : heap V) : Prop :=
  (hist = [] /\ st = None) \/
  exists h0 sp s buf irp ir cl, st = Some sp /\ inv V h0 h sp s buf irp ir cl /\ values V zero add mul hist ir cl /\ st_ir_f s = 0 /\ st_args_len s = args_size /\
    ir_f 0 (firstn args_size buf) = Some ir /\ hist <> [] /\ ir = snd (last hist ([], [])).

Definition fits (hist : list (list V * list V)) (n m : nat) : Prop := length (snd (last hist ([], []))) <= n + m.

Lemma ready_step hist st h args ir1 a out : ready hist st h -> length args = args_size -> ir_f 0 args = Some ir1 -> 0 < length ir1 -> length out = length a ->
  fits hist (length a) (length ir1) ->
  exists st' h', convolution_filter a 0 args (length args) st out h =
    Some (Ok tt, outputs (hist ++ [(a, ir1)]) (total V hist) (length a), st', h') /\ ready (hist ++ [(a, ir1)]) st' h' /\ st' <> None.
Proof.
  intros hr ha hf hp ho fit. destruct hr as [[-> ->]|(h0 & sp & s & buf & irp & ir & cl & -> & I & hv & s1 & s2 & s3 & hne & hl)].
  - destruct (filter_first V zero add mul ir_f junk junkb junk_len junkb_len h 0 args ir1 a out hf hp ho) as (h' & sp & s' & buf' & irp & cl' & out' & e & I & f1 & f2 & f3 & e1 & hv & _).
    exists (Some sp), h'. split; [rewrite e, e1; reflexivity|]. split; [|discriminate]. right. exists h, sp, s', buf', irp, ir1, cl'. splits; auto.
    + congruence.
    + rewrite <- ha, f3. exact hf.
    + discriminate.
  - destruct (filter_next V zero add mul ir_f junk junkb junk_len junkb_len h0 h sp s buf irp ir cl 0 args ir1 a out I hf hp ho)
      as (h' & s' & buf' & irp' & ir' & cl' & out' & e & I' & f1 & f2 & f3 & e1 & u & _ & _ & hn).
    assert (ir' = ir1) as ->. { destruct u as [|(u1 & u2 & u3 & u4)]; auto. rewrite <- u3, ha, s3 in hf. congruence. }
    assert (length ir <= length a + length ir1) as fit' by (rewrite hl; exact fit).
    destruct (hn hist hv fit') as [eo hv']. exists (Some sp), h'. split; [rewrite e, eo; reflexivity|]. split; [|discriminate]. right. exists h0, sp, s', buf', irp', ir1, cl'. splits; auto.
    + congruence.
    + congruence.
    + rewrite <- ha, f3. exact hf.
    + intros q. apply app_eq_nil in q. destruct q; discriminate.
    + rewrite last_last. reflexivity.
Qed.

(** modulation arrays reach over [n] samples *)
Definition covers (a : option (list Z)) (n : nat) : Prop := match a with Some l => n <= length l | None => True end.
Lemma optional_get_at a fixed i : covers a (S i) -> optional_get a fixed i = Some (at_time a fixed i).
Proof. destruct a as [l|]; cbn; intros h; [|reflexivity]. unfold aget. apply nth_error_nth'. lia. Qed.
Definition args_at (reject : bool) (cc : nchannel) (i : nat) : list Z :=
  let f := u16 (at_time (n_fmod V cc) (n_frq V cc) i) in
  pack f (u32 (f + at_time (n_wmod V cc) (n_wdt V cc) i)) (n_trnl V cc) (n_trnh V cc) reject.
Lemma filter_args_at reject cc i : covers (n_fmod V cc) (S i) -> covers (n_wmod V cc) (S i) -> filter_args reject cc i = Some (args_at reject cc i).
Proof. intros h1 h2. unfold NoiseModel.filter_args. rewrite (optional_get_at _ _ _ h1), (optional_get_at _ _ _ h2). reflexivity. Qed.
(** the response function succeeds for the arguments at time [i] *)
Definition responds_at (reject : bool) (cc : nchannel) (i : nat) : Prop := exists ir, ir_f 0 (args_at reject cc i) = Some ir /\ 0 < length ir.
Lemma response_at reject cc i : responds_at reject cc i -> ir_f 0 (args_at reject cc i) = Some (response reject cc i) /\ 0 < length (response reject cc i).
Proof. intros (ir & e & h). unfold NoiseSpec.response. unfold args_at in e. rewrite e. auto. Qed.

Lemma get_temp_some temps k b : get_temp temps k = Some b -> nth_error temps k = Some (Some b).
Proof. unfold NoiseModel.get_temp, aget. destruct (nth_error temps k) as [[x|]|]; cbn [bind]; congruence. Qed.
Lemma get_temp_aset temps k b temps' j : aset temps k (Some b) = Some temps' -> get_temp temps' j = if j =? k then Some b else get_temp temps j.
Proof. intros e. unfold NoiseModel.get_temp, aget. rewrite (aset_get _ _ _ _ _ e). bd; reflexivity. Qed.

Lemma fill_noise_ok r n temps t0 : get_temp temps 0 = Some t0 -> n <= length t0 ->
  exists temps', fill_noise r n temps = Some (snd (numbers n r), temps') /\ aset temps 0 (Some (fst (numbers n r) ++ skipn n t0)) = Some temps'.
Proof.
  intros e h. unfold NoiseModel.fill_noise. rewrite e. cbn [bind]. rewrite random_array_numbers by exact h. cbn [bind].
  destruct (aset_some temps 0 (Some (fst (numbers n r) ++ skipn n t0))) as (t' & e').
  { apply get_temp_some in e. apply nth_error_lt in e. exact e. }
  rewrite e'. cbn [bind]. eauto.
Qed.

Lemma apply_filter_ok reject cc i n k temps t0 b hist : get_temp temps 0 = Some t0 -> n <= length t0 -> get_temp temps k = Some b -> n <= length b ->
  covers (n_fmod V cc) (S i) -> covers (n_wmod V cc) (S i) -> responds_at reject cc i -> ready hist (n_state V cc) (n_heap V cc) ->
  fits hist n (length (response reject cc i)) ->
  let hist' := hist ++ [(firstn n t0, response reject cc i)] in
  exists st h temps' b', apply_filter reject cc i n k temps = Some (Ok tt, set_filter cc st h, temps') /\ ready hist' st h /\ st <> None /\
    aset temps k (Some b') = Some temps' /\ length b' = length b /\ firstn n b' = outputs hist' (total V hist) n.
Proof.
  intros e0 h0 ek hk c1 c2 hr rd fit hist'. destruct (response_at _ _ _ hr) as [ef hp].
  unfold NoiseModel.apply_filter. rewrite e0. cbn [bind]. rewrite slice_some by lia. cbn [bind skipn]. rewrite filter_args_at by assumption. cbn [bind]. rewrite ek. cbn [bind].
  rewrite slice_some by lia. cbn [bind skipn].
  assert (length (firstn n t0) = n) as l1 by (rewrite firstn_length; lia). assert (length (firstn n b) = n) as l2 by (rewrite firstn_length; lia).
  destruct (ready_step hist (n_state V cc) (n_heap V cc) (args_at reject cc i) (response reject cc i) (firstn n t0) (firstn n b) rd) as (st & h & e & rd' & ns); auto.
  { unfold args_at. apply pack_len. }
  { lia. }
  { rewrite l1. exact fit. }
  rewrite e. cbn [bind]. rewrite l1. fold hist'. set (o := outputs hist' (total V hist) n).
  assert (length o = n) as lo by (subst o; unfold FilterProofs.outputs; rewrite map_length, seq_length; reflexivity).
  destruct (blit_some o 0 b 0 n) as (b' & eb); try lia. rewrite eb. cbn [bind].
  destruct (aset_some temps k (Some b')) as (temps' & et). { apply get_temp_some in ek. apply nth_error_lt in ek. exact ek. }
  rewrite et. cbn [bind]. exists st, h, temps', b'. pose proof (blit_length _ _ _ _ _ _ eb) as lb. splits; auto.
  apply nth_error_ext. intros j. destruct (Nat.lt_ge_cases j n).
  - rewrite nth_error_firstn by lia. rewrite (blit_get _ _ _ _ _ _ j eb). bd; try lia. f_equal. lia.
  - rewrite nth_error_firstn_ge by lia. symmetry. apply nth_error_None. lia.
Qed.

(** ** mixing into the block *)
Notation mix := (mix V add mul limit).
Notation mixed := (mixed V add mul limit).
(** rows of the same lengths *)
Definition same_shape (a b : list (list V)) : Prop := map (@length V) a = map (@length V) b.
Lemma same_shape_length a b : same_shape a b -> length a = length b.
Proof. intros h. rewrite <- (map_length (@length V) a), h, map_length. reflexivity. Qed.
Lemma same_shape_row a b ch r : same_shape a b -> nth_error b ch = Some r -> exists r', nth_error a ch = Some r' /\ length r' = length r.
Proof.
  intros h e. assert (nth_error (map (@length V) a) ch = Some (length r)) as q by (rewrite h; apply map_nth_error; exact e).
  destruct (nth_error a ch) as [r'|] eqn:e'.
  - exists r'. split; auto. rewrite (map_nth_error _ _ _ e') in q. congruence.
  - exfalso. apply nth_error_None in e'. assert (nth_error (map (@length V) a) ch <> None) as n by congruence. apply nth_error_Some in n. rewrite map_length in n. lia.
Qed.
Lemma same_shape_aset a ch row row' a' : nth_error a ch = Some row -> length row' = length row -> aset a ch row' = Some a' -> same_shape a' a.
Proof.
  intros e hl ea. apply nth_error_ext. intros j. pose proof (aset_get _ _ _ _ j ea) as g.
  destruct (Nat.eq_dec j ch) as [->|n].
  - rewrite (map_nth_error _ _ _ e). replace (ch =? ch) with true in g by (symmetry; apply Nat.eqb_refl). rewrite (map_nth_error _ _ _ g). congruence.
  - replace (j =? ch) with false in g by (symmetry; apply Nat.eqb_neq; exact n). destruct (nth_error a j) as [x|] eqn:ex.
    + rewrite (map_nth_error _ _ _ ex). rewrite (map_nth_error _ _ _ g). reflexivity.
    + transitivity (@None nat); [|symmetry]; apply nth_error_None; rewrite map_length; apply nth_error_None; assumption.
Qed.

(** every row used has room for positions below [room] *)
Definition roomy (out : list (list V)) (room : nat) (cc : nchannel) : Prop := exists row, nth_error out (n_channel V cc) = Some row /\ room <= length row.
Lemma roomy_shape a b room cc : same_shape a b -> roomy b room cc -> roomy a room cc.
Proof. intros h (row & e & l). destruct (same_shape_row _ _ _ _ h e) as (r & e' & l'). exists r. split; auto. lia. Qed.

Lemma sample_at_shape a b ch j : same_shape a b -> (sample_at a ch j = None <-> sample_at b ch j = None).
Proof.
  intros h. unfold sample_at. destruct (nth_error b ch) as [row|] eqn:e.
  - destruct (same_shape_row _ _ _ _ h e) as (r & e' & l). rewrite e'. cbn [bind]. rewrite !nth_error_None. lia.
  - assert (nth_error a ch = None) as q. { apply nth_error_None. rewrite (same_shape_length _ _ h). apply nth_error_None. exact e. }
    rewrite q. cbn. tauto.
Qed.

Lemma mix_ok cc amod temp n bi ei out : n_amod V cc = Some amod -> ei + n <= length amod -> n <= length temp -> roomy out (bi + n) cc ->
  exists out', mix cc temp n bi ei out = Some out' /\ same_shape out' out /\
    forall ch j x, sample_at out ch j = Some x -> sample_at out' ch j = Some (
      if (bi <=? j) && (j <? bi + n) then
        if n_channel V cc =? ch then
          match nth_error amod (ei + (j - bi)), nth_error temp (j - bi) with
          | Some a, Some t => add x (limit (mul (mul (n_amp V cc) a) t))
          | _, _ => x
          end
        else x
      else x).
Proof.
  intros ea ha ht hr. unfold NoiseModel.mix.
  assert ((if n =? 0 then Some [] else n_amod V cc) = Some (if n =? 0 then [] else amod)) as -> by (destruct (n =? 0); auto). cbn [bind].
  set (P := fun (i : nat) (o : list (list V)) => same_shape o out /\ forall ch j x, sample_at out ch j = Some x -> sample_at o ch j = Some (
      if (bi <=? j) && (j <? bi + i) then
        if n_channel V cc =? ch then
          match nth_error amod (ei + (j - bi)), nth_error temp (j - bi) with
          | Some a, Some t => add x (limit (mul (mul (n_amp V cc) a) t))
          | _, _ => x
          end
        else x
      else x)).
  destruct (for_inv P (fun i out =>
    a <- aget (if n =? 0 then [] else amod) (ei + i) ;; t <- aget temp i ;; row <- aget out (n_channel V cc) ;; o <- aget row (bi + i) ;;
    row <- aset row (bi + i) (add o (limit (mul (mul (n_amp V cc) a) t))) ;; aset out (n_channel V cc) row) 0 n out) as (o & e & p).
  - lia.
  - split; [reflexivity|]. intros ch j x ex. bd; cbn [andb]; auto; lia.
  - intros i s [l1 l2] [hs hv]. destruct (Nat.eqb_spec n 0); [lia|].
    destruct (nth_error_some amod (ei + i) ltac:(lia)) as (a & e1). destruct (nth_error_some temp i ltac:(lia)) as (t & e2).
    destruct (roomy_shape _ _ _ _ hs hr) as (row & e3 & l3). destruct (nth_error_some row (bi + i) ltac:(lia)) as (x0 & e4).
    unfold aget. rewrite e1. cbn [bind]. rewrite e2. cbn [bind]. rewrite e3. cbn [bind]. rewrite e4. cbn [bind].
    destruct (aset_some row (bi + i) (add x0 (limit (mul (mul (n_amp V cc) a) t))) ltac:(lia)) as (row' & e5). rewrite e5. cbn [bind].
    destruct (aset_some s (n_channel V cc) row') as (s' & e6). { apply nth_error_lt in e3. exact e3. }
    rewrite e6. exists s'. split; [reflexivity|]. pose proof (aset_length _ _ _ _ e5) as l5. split.
    { transitivity (map (@length V) s); [|exact hs]. exact (same_shape_aset _ _ _ _ _ e3 l5 e6). }
    intros ch j x ex. specialize (hv ch j x ex). unfold sample_at in hv |- *. rewrite (aset_get _ _ _ _ ch e6).
    destruct (Nat.eqb_spec ch (n_channel V cc)) as [q|q].
    + subst ch. rewrite Nat.eqb_refl in *. rewrite e3 in hv. cbn [bind] in hv |- *. rewrite (aset_get _ _ _ _ j e5).
      destruct (Nat.eqb_spec j (bi + i)) as [q|q].
      * subst j. rewrite e4 in hv. replace (bi + i - bi) with i in * by lia. rewrite e1, e2 in *.
        replace ((bi <=? bi + i) && (bi + i <? bi + i)) with false in hv by (bd; cbn; lia). injection hv as ->.
        replace ((bi <=? bi + i) && (bi + i <? bi + S i)) with true by (bd; cbn; lia). reflexivity.
      * rewrite hv. f_equal. bd; cbn [andb]; auto; lia.
    + rewrite hv. assert (n_channel V cc =? ch = false) as -> by (apply Nat.eqb_neq; auto). f_equal. destruct ((bi <=? j) && (j <? bi + i)), ((bi <=? j) && (j <? bi + S i)); reflexivity.
  - exists o. split; [exact e|]. destruct p. split; auto.
Qed.

(** ** all channels *)
Notation segments := (segments V R draw ir_f pack).
Notation filtered_parts := (filtered_parts V R zero add mul draw ir_f pack).
Notation mix_channels := (mix_channels V zero add mul limit ir_f pack junk junkb).
Notation signals := (signals V).

Lemma segments_app reject cc r sizes n : forall s, segments reject cc r s (sizes ++ [n]) =
  segments reject cc r s sizes ++ [(white r (s + list_sum sizes) n, response reject cc (s + list_sum sizes))].
Proof.
  induction sizes as [|m sizes IH]; intros s; cbn [app NoiseSpec.segments].
  - rewrite Nat.add_0_r. reflexivity.
  - rewrite IH. replace (s + list_sum (m :: sizes)) with (s + m + list_sum sizes) by (cbn [list_sum fold_right]; fold (list_sum sizes); lia). reflexivity.
Qed.
Lemma segments_total reject cc r sizes : forall s, total V (segments reject cc r s sizes) = list_sum sizes.
Proof.
  induction sizes as [|m sizes IH]; intros s; cbn [NoiseSpec.segments]; [reflexivity|].
  unfold total in *. cbn [map fst concat list_sum fold_right]. rewrite app_length, white_length, IH. reflexivity.
Qed.
Lemma total_cons x l : total V (x :: l) = length (fst x) + total V l.
Proof. unfold total. cbn [map concat]. apply app_length. Qed.

(** the channels [chs] after the parts [sizes], for the channels [l] as prepared and the lead-ins of their filters *)
Inductive chan_ok (reject : bool) (r : R) (sizes : list nat) : list (nchannel * option nat) -> list (option (list V)) -> list nchannel -> Prop :=
| co_nil : chan_ok reject r sizes [] [] []
| co_own cc n lead st h l leads chs : n_use V cc = true -> st <> None ->
    ready ((lead, response reject cc 0) :: segments reject cc r 0 sizes) st h -> chan_ok reject r sizes l leads chs ->
    chan_ok reject r sizes ((cc, Some n) :: l) (Some lead :: leads) (set_filter cc st h :: chs)
| co_shared cc l leads chs : n_use V cc && is_some (n_state V cc) = false -> chan_ok reject r sizes l leads chs ->
    chan_ok reject r sizes ((cc, None) :: l) (None :: leads) (cc :: chs).

(** what a part of [n] samples after the parts [sizes] needs of a channel *)
Definition step_ok (reject : bool) (r : R) (sizes : list nat) (n : nat) (x : (nchannel * option nat) * option (list V)) : Prop :=
  let cc := fst (fst x) in
  let s := list_sum sizes in
  (exists amod, n_amod V cc = Some amod /\ s + n <= length amod) /\
  match snd x with
  | Some lead => covers (n_fmod V cc) (S s) /\ covers (n_wmod V cc) (S s) /\ responds_at reject cc s /\
      fits ((lead, response reject cc 0) :: segments reject cc r 0 sizes) n (length (response reject cc s))
  | None => True
  end.

Lemma set_filter_twice cc st h st' h' : set_filter (set_filter cc st h) st' h' = set_filter cc st' h'.
Proof. reflexivity. Qed.

Lemma mix_channels_ok reject r sizes n bi first : forall l leads chs, chan_ok reject r sizes l leads chs ->
  Forall (step_ok reject r sizes n) (combine l leads) ->
  forall cci temps t0 t1 out, 0 < cci -> get_temp temps 0 = Some t0 -> get_temp temps 1 = Some t1 -> n <= length t0 -> n <= length t1 ->
  firstn n t0 = white r (list_sum sizes) n -> firstn n t1 = map first (seq (list_sum sizes) n) ->
  (existsb (fun x => is_some (snd x)) l = true -> exists t2, get_temp temps 2 = Some t2 /\ n <= length t2) ->
  Forall (fun x => roomy out (bi + n) (fst x)) l ->
  exists chs' temps' out', mix_channels reject n bi (list_sum sizes) cci chs temps out = Some (chs', temps', out', true) /\
    chan_ok reject r (sizes ++ [n]) l leads chs' /\ get_temp temps' 0 = Some t0 /\ get_temp temps' 1 = Some t1 /\
    option_map (@length V) (get_temp temps' 2) = option_map (@length V) (get_temp temps 2) /\ same_shape out' out /\
    forall ch j x, sample_at out ch j = Some x -> sample_at out' ch j = Some (
      if (bi <=? j) && (j <? bi + n) then mixed (signals (fun cc lead => filtered_parts reject cc lead r (sizes ++ [n])) first l leads) ch (list_sum sizes + (j - bi)) x
      else x).
Proof.
  set (s := list_sum sizes). induction 1 as [|cc m lead st h l leads chs hu hst rd co IH|cc l leads chs hu co IH]; intros hf cci temps t0 t1 out hc e0 e1 l0 l1 w0 w1 h2 hr.
  - cbn [NoiseModel.mix_channels]. exists [], temps, out. splits; auto; [constructor|reflexivity|]. intros ch j x ex. rewrite ex. destruct (_ && _); reflexivity.
  - cbn [combine] in hf. apply Forall_cons_iff in hf. destruct hf as [hf1 hf']. destruct hf1 as [(amod & ea & la) (c1 & c2 & rs & ft)]. cbn [fst snd] in *. fold s in la, c1, c2, rs, ft. apply Forall_cons_iff in hr. destruct hr as [hr1 hr2]. cbn [fst] in hr1.
    cbn [NoiseModel.mix_channels]. change (n_use V (set_filter cc st h)) with (n_use V cc). change (n_state V (set_filter cc st h)) with st. rewrite hu.
    destruct st as [sp|]; [|congruence]. cbn [is_some andb]. destruct (Nat.ltb_spec 0 cci); [|lia].
    destruct (h2 eq_refl) as (t2 & e2 & l2).
    set (hist := (lead, response reject cc 0) :: segments reject cc r 0 sizes) in *.
    destruct (apply_filter_ok reject (set_filter cc (Some sp) h) s n 2 temps t0 t2 hist e0 l0 e2 l2 c1 c2 rs rd ft) as (st' & h' & temps' & b' & ef & rd' & ns & et & lb & fb).
    rewrite ef. cbn [bind]. rewrite set_filter_twice. rewrite (get_temp_aset _ _ _ _ 2 et). cbn [Nat.eqb bind].
    destruct (mix_ok (set_filter cc st' h') amod b' n bi s out ea la ltac:(lia) hr1) as (out1 & em & sh1 & v1). rewrite em. cbn [bind].
    destruct (IH hf' (S cci) temps' t0 t1 out1) as (chs' & temps2 & out2 & e3 & co' & g0 & g1 & g2 & sh2 & v2); auto; try lia.
    { rewrite (get_temp_aset _ _ _ _ 0 et). exact e0. }
    { rewrite (get_temp_aset _ _ _ _ 1 et). exact e1. }
    { intros _. exists b'. rewrite (get_temp_aset _ _ _ _ 2 et). cbn [Nat.eqb]. split; auto. lia. }
    { eapply Forall_impl; [|exact hr2]. intros x. apply roomy_shape. exact sh1. }
    rewrite e3. cbn [bind]. exists (set_filter cc st' h' :: chs'), temps2, out2.
    assert (hist ++ [(firstn n t0, response reject (set_filter cc (Some sp) h) s)] = (lead, response reject cc 0) :: segments reject cc r 0 (sizes ++ [n])) as eh.
    { subst hist. rewrite segments_app, w0. cbn [app Nat.add]. reflexivity. }
    rewrite eh in rd', fb. splits; auto.
    + constructor; auto.
    + rewrite g2, (get_temp_aset _ _ _ _ 2 et), e2. cbn [Nat.eqb option_map]. rewrite lb. reflexivity.
    + transitivity (map (@length V) out1); assumption.
    + intros ch j x ex. specialize (v1 ch j x ex). specialize (v2 _ _ _ v1). rewrite v2. f_equal.
      destruct ((bi <=? j) && (j <? bi + n)) eqn:eb; [|reflexivity]. apply andb_prop in eb. destruct eb as [b1 b2]. apply Nat.leb_le in b1. apply Nat.ltb_lt in b2.
      cbn [NoiseSpec.signals]. unfold NoiseSpec.mixed at 2. cbn [fold_left]. unfold NoiseSpec.mixed. f_equal.
      change (n_channel V (set_filter cc st' h')) with (n_channel V cc). change (n_amp V (set_filter cc st' h')) with (n_amp V cc).
      destruct (n_channel V cc =? ch); [|reflexivity]. rewrite ea. destruct (nth_error_some amod (s + (j - bi)) ltac:(lia)) as (a & ena). rewrite ena.
      assert (nth_error b' (j - bi) = Some (filtered_parts reject cc lead r (sizes ++ [n]) (s + (j - bi)))) as ->; [|reflexivity].
      rewrite <- (nth_error_firstn b' n) by lia. rewrite fb. unfold FilterProofs.outputs. rewrite map_nth_error_seq by lia.
      unfold NoiseSpec.filtered_parts. subst hist. rewrite total_cons, segments_total. cbn [fst]. fold s. f_equal. f_equal. lia.
  - cbn [combine] in hf. apply Forall_cons_iff in hf. destruct hf as [hf1 hf']. destruct hf1 as [(amod & ea & la) _]. cbn [fst snd] in *. fold s in la. apply Forall_cons_iff in hr. destruct hr as [hr1 hr2]. cbn [fst] in hr1.
    cbn [NoiseModel.mix_channels]. rewrite hu. cbn [bind]. rewrite e1. cbn [bind].
    destruct (mix_ok cc amod t1 n bi s out ea la l1 hr1) as (out1 & em & sh1 & v1). rewrite em. cbn [bind].
    destruct (IH hf' (S cci) temps t0 t1 out1) as (chs' & temps2 & out2 & e3 & co' & g0 & g1 & g2 & sh2 & v2); auto; try lia.
    { eapply Forall_impl; [|exact hr2]. intros x. apply roomy_shape. exact sh1. }
    rewrite e3. cbn [bind]. exists (cc :: chs'), temps2, out2. splits; auto.
    + constructor; auto.
    + transitivity (map (@length V) out1); assumption.
    + intros ch j x ex. specialize (v1 ch j x ex). specialize (v2 _ _ _ v1). rewrite v2. f_equal.
      destruct ((bi <=? j) && (j <? bi + n)) eqn:eb; [|reflexivity]. apply andb_prop in eb. destruct eb as [b1 b2]. apply Nat.leb_le in b1. apply Nat.ltb_lt in b2.
      cbn [NoiseSpec.signals]. unfold NoiseSpec.mixed at 2. cbn [fold_left]. unfold NoiseSpec.mixed. f_equal.
      destruct (n_channel V cc =? ch); [|reflexivity]. rewrite ea. destruct (nth_error_some amod (s + (j - bi)) ltac:(lia)) as (a & ena). rewrite ena.
      assert (nth_error t1 (j - bi) = Some (first (s + (j - bi)))) as ->; [|reflexivity].
      rewrite <- (nth_error_firstn t1 n) by lia. rewrite w1. rewrite map_nth_error_seq by lia. reflexivity.
Qed.

(** ** parts *)
Notation nconfig := (nconfig V R).
Notation generate_block := (generate_block V R zero add mul limit draw ir_f pack junk junkb).
Notation generate := (generate V R zero add mul limit draw ir_f pack junk junkb).
Notation noise_run := (noise_run V R zero add mul limit draw ir_f pack junk junkb).

Section Event.
Variables (reject : bool) (r : R) (c0 : nchannel) (len0 : nat) (lead0 : list V).
Variables (rest : list (nchannel * option nat)) (rest_leads : list (option (list V))).
Hypothesis use0 : n_use V c0 = true.
Notation all := ((c0, Some len0) :: rest).
Notation leads := (Some lead0 :: rest_leads).
(** the channels with their signals after the parts [full] *)
Definition esignals (full : list nat) : list (nchannel * (nat -> V)) :=
  signals (fun cc lead => filtered_parts reject cc lead r full) (filtered_parts reject c0 lead0 r full) all leads.

Lemma filtered_prefix cc lead a b t : t < list_sum a -> filtered_parts reject cc lead r (a ++ b) t = filtered_parts reject cc lead r a t.
Proof.
  intros h. unfold NoiseSpec.filtered_parts. revert h. revert a. induction b as [|n b IH]; intros a h; [rewrite app_nil_r; reflexivity|].
  replace (a ++ n :: b) with ((a ++ [n]) ++ b) by (rewrite <- app_assoc; reflexivity). rewrite IH by (rewrite list_sum_app; lia).
  rewrite segments_app. rewrite app_comm_cons. rewrite overlap_add_snoc. cbv zeta. fold (total V ((lead, response reject cc 0) :: segments reject cc r 0 a)). rewrite total_cons, segments_total. cbn [fst]. bd; [reflexivity|lia].
Qed.
Lemma mixed_ext f1 f2 g1 g2 ch t : (forall cc lead, f1 cc lead t = f2 cc lead t) -> g1 t = g2 t -> forall l ls x,
  mixed (signals f1 g1 l ls) ch t x = mixed (signals f2 g2 l ls) ch t x.
Proof.
  intros hf hg. induction l as [|[cc n] l IH]; intros ls x; [reflexivity|]. destruct ls as [|y ls]; [reflexivity|].
  cbn [NoiseSpec.signals]. unfold NoiseSpec.mixed. cbn [fold_left].
  replace (match y with Some z => f1 cc z | None => g1 end t) with (match y with Some z => f2 cc z | None => g2 end t) by (destruct y; auto).
  apply IH.
Qed.
Lemma event_prefix a b ch t x : t < list_sum a -> mixed (esignals (a ++ b)) ch t x = mixed (esignals a) ch t x.
Proof. intros h. apply mixed_ext; intros; apply filtered_prefix; exact h. Qed.

(** the configuration after the parts [sizes]; [tl]: length of the temporary buffers *)
Definition noise_inv (res tl : nat) (sizes : list nat) (c : nconfig) : Prop :=
  nc_reject V R c = reject /\ nc_resolution V R c = res /\ nc_random V R c = snd (numbers (list_sum sizes) r) /\
  (exists t0, get_temp (nc_temp V R c) 0 = Some t0 /\ length t0 = tl) /\ (exists t1, get_temp (nc_temp V R c) 1 = Some t1 /\ length t1 = tl) /\
  (existsb (fun x => is_some (snd x)) rest = true -> exists t2, get_temp (nc_temp V R c) 2 = Some t2 /\ length t2 = tl) /\
  chan_ok reject r sizes all leads (nc_channels V R c).

Lemma generate_block_ok res tl sizes c n bi out : noise_inv res tl sizes c -> n <= tl -> Forall (step_ok reject r sizes n) (combine all leads) ->
  Forall (fun x => roomy out (bi + n) (fst x)) all ->
  exists c' out', generate_block n bi (list_sum sizes) (c, out) = Some ((c', out'), true) /\ noise_inv res tl (sizes ++ [n]) c' /\ same_shape out' out /\
    forall ch j x, sample_at out ch j = Some x -> sample_at out' ch j = Some (
      if (bi <=? j) && (j <? bi + n) then mixed (esignals (sizes ++ [n])) ch (list_sum sizes + (j - bi)) x else x).
Proof.
  intros (i1 & i0 & i2 & (t0 & e0 & l0) & (t1 & e1 & l1) & h2 & co) hn hf hr. unfold NoiseModel.generate_block.
  destruct (fill_noise_ok (nc_random V R c) n (nc_temp V R c) t0 e0 ltac:(lia)) as (temps & ef & et). rewrite ef. cbn [bind]. rewrite i1.
  set (s := list_sum sizes) in *. rewrite i2 in *.
  set (t0' := fst (numbers n (snd (numbers s r))) ++ skipn n t0) in *.
  assert (length t0' = tl) as l0'. { subst t0'. rewrite app_length, numbers_length, skipn_length. lia. }
  assert (firstn n t0' = white r s n) as w0.
  { subst t0'. rewrite firstn_app, numbers_length, Nat.sub_diag. cbn [firstn]. rewrite app_nil_r. rewrite firstn_all2; [reflexivity|]. rewrite numbers_length. lia. }
  pose proof (get_temp_aset _ _ _ _ 0 et) as g0. pose proof (get_temp_aset _ _ _ _ 1 et) as g1. pose proof (get_temp_aset _ _ _ _ 2 et) as g2. cbn [Nat.eqb] in g0, g1, g2.
  remember (nc_channels V R c) as chs0 eqn:ech. clear ech. inversion co as [|cc m lead st h l ls chs hu hst rd co' q1 q2 q3|]; clear co; subst cc m lead l ls chs0.
  cbn [combine] in hf. apply Forall_cons_iff in hf. destruct hf as [hf1 hf']. destruct hf1 as [(amod & ea & la) (c1 & c2 & rs & ft)]. cbn [fst snd] in *. fold s in la, c1, c2, rs, ft.
  apply Forall_cons_iff in hr. destruct hr as [hr1 hr2]. cbn [fst] in hr1.
  cbn [NoiseModel.mix_channels]. change (n_use V (set_filter c0 st h)) with (n_use V c0). change (n_state V (set_filter c0 st h)) with st. rewrite use0.
  destruct st as [sp|]; [|congruence]. change (0 <? 0) with false. cbn [is_some andb].
  set (hist := (lead0, response reject c0 0) :: segments reject c0 r 0 sizes) in *.
  rewrite e1 in g1.
  destruct (apply_filter_ok reject (set_filter c0 (Some sp) h) s n 1 temps t0' t1 hist g0 ltac:(lia) g1 ltac:(lia) c1 c2 rs rd ft) as (st' & h' & temps' & b' & ef' & rd' & ns & et' & lb & fb).
  rewrite ef'. cbn [bind]. rewrite set_filter_twice. pose proof (get_temp_aset _ _ _ _ 0 et') as k0. pose proof (get_temp_aset _ _ _ _ 1 et') as k1. pose proof (get_temp_aset _ _ _ _ 2 et') as k2. cbn [Nat.eqb] in k0, k1, k2.
  rewrite k1. cbn [bind].
  destruct (mix_ok (set_filter c0 st' h') amod b' n bi s out ea la ltac:(lia) hr1) as (out1 & em & sh1 & v1). rewrite em. cbn [bind].
  assert (hist ++ [(firstn n t0', response reject (set_filter c0 (Some sp) h) s)] = (lead0, response reject c0 0) :: segments reject c0 r 0 (sizes ++ [n])) as eh.
  { subst hist. rewrite segments_app, w0. cbn [app Nat.add]. reflexivity. }
  rewrite eh in rd', fb.
  assert (firstn n b' = map (filtered_parts reject c0 lead0 r (sizes ++ [n])) (seq s n)) as w1.
  { rewrite fb. unfold FilterProofs.outputs, NoiseSpec.filtered_parts. apply nth_error_ext. intros j. subst hist. rewrite total_cons, segments_total. cbn [fst]. fold s. destruct (Nat.lt_ge_cases j n).
    - rewrite !map_nth_error_seq by lia. f_equal. f_equal. lia.
    - transitivity (@None V); [|symmetry]; apply nth_error_None; rewrite map_length, seq_length; lia. }
  destruct (mix_channels_ok reject r sizes n bi (filtered_parts reject c0 lead0 r (sizes ++ [n])) rest rest_leads chs co' hf' 1 temps' t0' b' out1) as (chs' & temps2 & out2 & e3 & co2 & m0 & m1 & m2 & sh2 & v2); auto; try lia.
  { rewrite k0. exact g0. }
  { intros q. destruct (h2 q) as (t2 & q2 & q3). exists t2. rewrite k2, g2. split; auto. lia. }
  { eapply Forall_impl; [|exact hr2]. intros x. apply roomy_shape. exact sh1. }
  fold s in e3, v2. rewrite e3. cbn [bind]. eexists _, out2. split; [reflexivity|]. split; [|split].
  - unfold noise_inv. cbn [nc_reject nc_resolution nc_random nc_temp nc_channels]. splits; auto.
    + rewrite list_sum_app. cbn [list_sum fold_right]. rewrite Nat.add_0_r. fold s. rewrite numbers_add. reflexivity.
    + exists t0'. auto.
    + exists b'. split; auto. lia.
    + intros q. destruct (h2 q) as (t2 & q2 & q3). rewrite k2, g2, q2 in m2. cbn [option_map] in m2. destruct (get_temp temps2 2) as [t2'|]; [|discriminate]. exists t2'. split; auto. cbn in m2. congruence.
    + constructor; auto.
  - transitivity (map (@length V) out1); assumption.
  - intros ch j x ex. specialize (v1 ch j x ex). specialize (v2 _ _ _ v1). rewrite v2. f_equal.
    destruct ((bi <=? j) && (j <? bi + n)) eqn:eb; [|reflexivity]. apply andb_prop in eb. destruct eb as [b1 b2]. apply Nat.leb_le in b1. apply Nat.ltb_lt in b2.
    unfold esignals. cbn [NoiseSpec.signals]. unfold NoiseSpec.mixed at 2. cbn [fold_left]. unfold NoiseSpec.mixed. f_equal.
    change (n_channel V (set_filter c0 st' h')) with (n_channel V c0). change (n_amp V (set_filter c0 st' h')) with (n_amp V c0).
    destruct (n_channel V c0 =? ch); [|reflexivity]. rewrite ea. destruct (nth_error_some amod (s + (j - bi)) ltac:(lia)) as (a & ena). rewrite ena.
    assert (nth_error b' (j - bi) = Some (filtered_parts reject c0 lead0 r (sizes ++ [n]) (s + (j - bi)))) as ->; [|reflexivity].
    rewrite <- (nth_error_firstn b' n) by lia. rewrite w1. rewrite map_nth_error_seq by lia. reflexivity.
Qed.

(** every part of [full] has what it needs *)
Definition event_ok (full : list nat) : Prop :=
  forall sizes n more, full = sizes ++ n :: more -> Forall (step_ok reject r sizes n) (combine all leads).

Lemma tiles_ok res tl full : event_ok full -> forall tiles sizes more c bi out, full = sizes ++ tiles ++ more -> noise_inv res tl sizes c ->
  Forall (fun n => n <= tl) tiles -> Forall (fun x => roomy out (bi + list_sum tiles) (fst x)) all ->
  exists c' out', run_tiles (nconfig * list (list V)) generate_block tiles bi (list_sum sizes) (c, out) = Some ((c', out'), true) /\
    noise_inv res tl (sizes ++ tiles) c' /\ same_shape out' out /\
    forall ch j x, sample_at out ch j = Some x -> sample_at out' ch j = Some (
      if (bi <=? j) && (j <? bi + list_sum tiles) then mixed (esignals full) ch (list_sum sizes + (j - bi)) x else x).
Proof.
  intros ok. induction tiles as [|n tiles IH]; intros sizes more c bi out ef inv ht hr.
  - exists c, out. cbn [run_tiles app]. rewrite app_nil_r. splits; auto; [reflexivity|]. intros ch j x ex. rewrite ex. cbn [list_sum fold_right]. bd; cbn [andb]; auto; lia.
  - inversion ht as [|? ? hn ht']; subst. change (list_sum (n :: tiles)) with (n + list_sum tiles) in *.
    destruct (generate_block_ok res tl sizes c n bi out inv hn) as (c1 & out1 & e1 & inv1 & sh1 & v1).
    { apply (ok sizes n (tiles ++ more)). reflexivity. }
    { eapply Forall_impl; [|exact hr]. intros x (row & q1 & q2). exists row. split; auto. lia. }
    cbn [run_tiles]. rewrite e1. cbn [bind].
    destruct (IH (sizes ++ [n]) more c1 (bi + n) out1) as (c2 & out2 & e2 & inv2 & sh2 & v2); auto.
    { rewrite <- app_assoc. reflexivity. }
    { eapply Forall_impl; [|exact hr]. intros x q. eapply roomy_shape; [exact sh1|]. replace (bi + n + list_sum tiles) with (bi + (n + list_sum tiles)) by lia. exact q. }
    assert (list_sum (sizes ++ [n]) = list_sum sizes + n) as hs by (rewrite list_sum_app; cbn [list_sum fold_right]; lia). rewrite hs in *.
    rewrite e2. exists c2, out2. split; [reflexivity|]. split; [|split].
    + rewrite <- app_assoc in inv2. exact inv2.
    + transitivity (map (@length V) out1); assumption.
    + intros ch j x ex. specialize (v1 ch j x ex). specialize (v2 _ _ _ v1). rewrite v2. f_equal.
      assert (forall t y, t < list_sum sizes + n -> mixed (esignals (sizes ++ (n :: tiles) ++ more)) ch t y = mixed (esignals (sizes ++ [n])) ch t y) as hp.
      { intros t y ht2. replace (sizes ++ (n :: tiles) ++ more) with ((sizes ++ [n]) ++ tiles ++ more) by (rewrite <- app_assoc; reflexivity). apply event_prefix. lia. }
      destruct (Nat.leb_spec bi j); cbn [andb].
      * destruct (Nat.ltb_spec j (bi + n)).
        -- destruct (Nat.leb_spec (bi + n) j); [lia|]. cbn [andb]. destruct (Nat.ltb_spec j (bi + (n + list_sum tiles))); [|lia]. rewrite hp by lia. reflexivity.
        -- destruct (Nat.leb_spec (bi + n) j); [|lia]. cbn [andb]. replace (j <? bi + n + list_sum tiles) with (j <? bi + (n + list_sum tiles)) by (bd; lia).
           destruct (j <? bi + (n + list_sum tiles)); [|reflexivity]. f_equal. lia.
      * destruct (Nat.leb_spec (bi + n) j); [lia|]. reflexivity.
Qed.

Notation produced full := (sounds V add mul limit (esignals full)).

Lemma noise_run_ok res tl full : event_ok full -> 0 < res -> forall calls sizes more c, full = sizes ++ all_parts res (map fst calls) ++ more ->
  noise_inv res tl sizes c -> Forall (fun n => n <= tl) (all_parts res (map fst calls)) ->
  Forall (fun call => 0 < fst call /\ Forall (fun x => roomy (snd call) (fst call) (fst x)) all) calls ->
  exists outs c', noise_run (list_sum sizes) calls c = Some (outs, c') /\ produced full (list_sum sizes) calls outs /\ noise_inv res tl (sizes ++ all_parts res (map fst calls)) c'.
Proof.
  intros ok hres. induction calls as [|[n out] calls IH]; intros sizes more c ef inv ht hr.
  - exists [], c. cbn. rewrite app_nil_r. auto.
  - cbn [map fst] in *. unfold all_parts in *. cbn [map concat] in *. fold (all_parts res (map fst calls)) in *.
    apply Forall_app in ht. destruct ht as [ht1 ht2]. apply Forall_cons_iff in hr. destruct hr as [[hn hr1] hr2]. cbn [fst snd] in *.
    destruct (block_generate_parts res (list_sum sizes) (list_sum sizes + n) (nconfig * list (list V)) generate_block (c, out) ltac:(lia) hres) as (eb & es & _).
    replace (list_sum sizes + n - list_sum sizes) with n in * by lia.
    destruct (tiles_ok res tl full ok (parts res n) sizes (all_parts res (map fst calls) ++ more) c 0 out) as (c1 & out1 & e1 & inv1 & sh1 & v1); auto.
    { rewrite <- app_assoc in ef. exact ef. }
    { cbn [Nat.add]. rewrite es. exact hr1. }
    assert (list_sum (sizes ++ parts res n) = list_sum sizes + n) as hs by (rewrite list_sum_app, es; reflexivity).
    destruct (IH (sizes ++ parts res n) more c1) as (outs & c2 & e2 & p2 & inv2); auto.
    { rewrite <- app_assoc. rewrite <- app_assoc in ef. exact ef. }
    rewrite hs in *. cbn [NoiseModel.noise_run]. unfold NoiseModel.generate. destruct inv as (i1 & i0 & _). rewrite i0, eb, e1. cbn [bind need].
    rewrite e2. cbn [bind]. exists (out1 :: outs), c2. split; [reflexivity|]. split.
    + cbn [NoiseSpec.sounds]. splits; auto. intros ch j x ex. rewrite (v1 ch j x ex). f_equal. cbn [Nat.add Nat.leb andb]. rewrite es. rewrite Nat.sub_0_r. reflexivity.
    + rewrite app_assoc. exact inv2.
Qed.
End Event.

(** ** preparation *)
Notation prepare_channel := (prepare_channel V).
Notation prepare_channels := (prepare_channels V).
Notation init_filters := (init_filters V R zero add mul draw ir_f pack junk junkb).
Notation prepare := (prepare V R zero add mul draw ir_f pack junk junkb).
Notation inherit := (inherit V).
Notation own_filter := (own_filter V).
Notation channel_length := (channel_length V).
Notation event_channels := (event_channels V R).
Notation modulated := (modulated V R).
Notation lead_ins := (lead_ins V R draw).

Lemma ir_length_eq rate trn : trn <> 0%Z -> ir_length rate trn = Some (response_length rate trn).
Proof. intros h. unfold ir_length, response_length. destruct (Z.eqb_spec trn 0); [contradiction|]. reflexivity. Qed.

Lemma prepare_channel_eq rate c0 cc : (own_filter cc = true -> Z.min (n_trnl V (inherit c0 cc)) (n_trnh V (inherit c0 cc)) <> 0%Z) ->
  prepare_channel rate c0 cc = Some (inherit c0 cc, (if own_filter cc then Some (channel_length rate (inherit c0 cc)) else None), own_filter cc && (is_some (n_fmod V cc) || is_some (n_wmod V cc))).
Proof.
  unfold NoiseModel.prepare_channel, NoiseSpec.channel_length, NoiseSpec.inherit, NoiseSpec.own_filter. destruct (n_use V cc) eqn:eu; cbn [andb]; [|reflexivity].
  change (negb (n_frq V cc =? 0)%Z) with (nonzero (n_frq V cc)). change (negb (n_wdt V cc =? 0)%Z) with (nonzero (n_wdt V cc)). change (negb (n_trnl V cc =? 0)%Z) with (nonzero (n_trnl V cc)). change (negb (n_trnh V cc =? 0)%Z) with (nonzero (n_trnh V cc)).
  destruct (nonzero (n_frq V cc) || _ || _ || _ || _ || _) eqn:e; cbn [andb n_trnl n_trnh].
  - intros h. specialize (h eq_refl). unfold nonzero in *.
    replace (if negb (n_trnl V cc =? 0)%Z then n_trnl V cc else n_trnl V c0) with (if (n_trnl V cc =? 0)%Z then n_trnl V c0 else n_trnl V cc) by (destruct (n_trnl V cc =? 0)%Z; reflexivity).
    replace (if negb (n_trnh V cc =? 0)%Z then n_trnh V cc else n_trnh V c0) with (if (n_trnh V cc =? 0)%Z then n_trnh V c0 else n_trnh V cc) by (destruct (n_trnh V cc =? 0)%Z; reflexivity).
    replace (if negb (n_wdt V cc =? 0)%Z then n_wdt V cc else n_wdt V c0) with (if (n_wdt V cc =? 0)%Z then n_wdt V c0 else n_wdt V cc) by (destruct (n_wdt V cc =? 0)%Z; reflexivity).
    rewrite ir_length_eq by exact h. unfold or_else. destruct (n_amod V cc), (n_fmod V cc), (n_wmod V cc); reflexivity.
  - intros _. unfold or_else. destruct (n_amod V cc); reflexivity.
Qed.
Lemma prepare_channels_eq rate c0 : forall l, Forall (fun cc => own_filter cc = true -> Z.min (n_trnl V (inherit c0 cc)) (n_trnh V (inherit c0 cc)) <> 0%Z) l ->
  prepare_channels rate c0 l = Some (map (fun cc => (inherit c0 cc, if own_filter cc then Some (channel_length rate (inherit c0 cc)) else None)) l,
    existsb (fun cc => own_filter cc && (is_some (n_fmod V cc) || is_some (n_wmod V cc))) l).
Proof.
  induction l as [|cc l IH]; intros h; [reflexivity|]. inversion h; subst. cbn [NoiseModel.prepare_channels map existsb]. rewrite prepare_channel_eq by assumption. cbn [bind]. rewrite IH by assumption. reflexivity.
Qed.

(** a channel that can be initialised: [tl] is the length of the temporary buffers *)
Definition init_ok (reject : bool) (tl : nat) (x : nchannel * option nat) : Prop :=
  n_state V (fst x) = None /\
  match snd x with
  | Some n => n_use V (fst x) = true /\ n <= tl /\ covers (n_fmod V (fst x)) 1 /\ covers (n_wmod V (fst x)) 1 /\ responds_at reject (fst x) 0
  | None => True
  end.
Lemma init_filters_ok reject tl : forall l r temps t0 t1, Forall (init_ok reject tl) l -> get_temp temps 0 = Some t0 -> length t0 = tl -> get_temp temps 1 = Some t1 -> length t1 = tl ->
  exists chs temps' t0' t1', init_filters reject l r temps = Some (chs, snd (lead_ins l r), temps', true) /\
    get_temp temps' 0 = Some t0' /\ length t0' = tl /\ get_temp temps' 1 = Some t1' /\ length t1' = tl /\ get_temp temps' 2 = get_temp temps 2 /\
    forall r', chan_ok reject r' [] l (fst (lead_ins l r)) chs.
Proof.
  induction l as [|[cc [n|]] l IH]; intros r temps t0 t1 h e0 l0 e1 l1; cbn [NoiseModel.init_filters NoiseSpec.lead_ins].
  - exists [], temps, t0, t1. splits; auto. intros r'. constructor.
  - apply Forall_cons_iff in h. destruct h as [(h1 & h2 & h3 & h4 & h5 & h6) h]. cbn [fst snd] in *.
    unfold NoiseModel.filter_state. destruct (fill_noise_ok r n temps t0 e0 ltac:(lia)) as (tm & ef & et). rewrite ef. cbn [bind].
    pose proof (get_temp_aset _ _ _ _ 0 et) as g0. pose proof (get_temp_aset _ _ _ _ 1 et) as g1. pose proof (get_temp_aset _ _ _ _ 2 et) as g2. cbn [Nat.eqb] in g0, g1, g2. rewrite e1 in g1.
    remember (fst (numbers n r) ++ skipn n t0) as t0' eqn:et0. assert (length t0' = tl) as l0'. { subst t0'. rewrite app_length, numbers_length, skipn_length. lia. }
    destruct (apply_filter_ok reject cc 0 n 1 tm t0' t1 [] g0 ltac:(lia) g1 ltac:(lia) h4 h5 h6) as (st' & h' & temps' & b' & ef' & rd' & ns & et' & lb & fb).
    { left. auto. }
    { unfold fits. cbn [last snd length]. lia. }
    rewrite ef'. cbn [bind]. pose proof (get_temp_aset _ _ _ _ 0 et') as k0. pose proof (get_temp_aset _ _ _ _ 1 et') as k1. pose proof (get_temp_aset _ _ _ _ 2 et') as k2. cbn [Nat.eqb] in k0, k1, k2.
    destruct (IH (snd (numbers n r)) temps' t0' b' h) as (chs & temps2 & a0 & a1 & e2 & m0 & m1 & m2 & m3 & m4 & co); try congruence.
    destruct (numbers n r) as [x r1] eqn:en. cbn [fst snd] in *. destruct (lead_ins l r1) as [ls r2] eqn:el. cbn [fst snd] in *. rewrite e2. cbn [bind].
    exists (set_filter cc st' h' :: chs), temps2, a0, a1. splits; auto; try congruence.
    intros r'. constructor; auto. cbn [NoiseSpec.segments]. cbn [app] in rd'.
    assert (firstn n t0' = x) as <-; [|exact rd'].
    assert (length x = n) as hx by (rewrite <- (numbers_length n r), en; reflexivity). rewrite et0. rewrite firstn_app, hx, Nat.sub_diag. cbn [firstn]. rewrite app_nil_r. apply firstn_all2. lia.
  - apply Forall_cons_iff in h. destruct h as [(h1 & _) h]. cbn [fst snd] in *.
    destruct (IH r temps t0 t1 h e0 l0 e1 l1) as (chs & temps2 & a0 & a1 & e2 & m0 & m1 & m2 & m3 & m4 & co). destruct (lead_ins l r) as [ls r1]. cbn [fst snd] in *. rewrite e2. cbn [bind].
    exists (cc :: chs), temps2, a0, a1. splits; auto. intros r'. constructor; auto. rewrite h1. apply andb_false_r.
Qed.

Lemma longest_ge l : forall m, m <= fold_left (fun (m : nat) (x : nchannel * option nat) => match snd x with Some n => if m <? n then n else m | None => m end) l m.
Proof.
  induction l as [|[cc [n|]] l IH]; intros m; cbn [fold_left snd]; [lia| |apply IH]. destruct (Nat.ltb_spec m n); [|apply IH]. etransitivity; [|apply IH]. lia.
Qed.
Lemma longest_bound l b : Forall (fun x : nchannel * option nat => match snd x with Some n => n <= b | None => True end) l -> longest V l <= b.
Proof.
  unfold longest. assert (forall m, m <= b -> Forall (fun x : nchannel * option nat => match snd x with Some n => n <= b | None => True end) l ->
    fold_left (fun (m : nat) (x : nchannel * option nat) => match snd x with Some n => if m <? n then n else m | None => m end) l m <= b) as H.
  { induction l as [|[cc [n|]] l IH]; intros m hm h; cbn [fold_left snd]; auto; inversion h; subst; apply IH; auto. cbn [snd] in *. destruct (m <? n); auto. }
  apply H. lia.
Qed.
Lemma longest_in l : forall x n, In x l -> snd x = Some n -> n <= longest V l.
Proof.
  unfold longest. generalize 0. induction l as [|[cc o] l IH]; intros m x n hi hs; [destruct hi|].
  destruct hi as [<-|hi]; cbn [fold_left].
  - cbn [snd] in *. subst o. etransitivity; [|apply longest_ge]. destruct (Nat.ltb_spec m n); lia.
  - apply IH with (x := x); auto.
Qed.

(** ** the whole event *)
Notation playable := (playable V R ir_f pack).
Notation playable_channel := (playable_channel V ir_f pack).
Notation update_interval := (update_interval V R).
Notation event_signals := (event_signals V R draw).
Notation sounds := (sounds V add mul limit).

Lemma response_length_bound rate trn : (0 < rate)%Z -> (2 <= trn)%Z -> response_length rate trn <= Z.to_nat (4 * rate).
Proof.
  intros h1 h2. unfold response_length. assert ((4 * rate + trn - 1) / trn <= 2 * rate)%Z as h.
  { assert ((4 * rate + trn - 1) / trn < 2 * rate + 1)%Z; [|lia]. apply Z.div_lt_upper_bound; nia. }
  destruct (Nat.even _); lia.
Qed.
Lemma playable_responds reject duration cc m : 0 < m -> (forall t, t < duration -> length (response reject cc t) = m) -> forall t, t < duration -> responds_at reject cc t.
Proof.
  intros hm h t ht. specialize (h t ht). unfold responds_at. unfold NoiseSpec.response in h. unfold args_at.
  destruct (ir_f 0 (pack (u16 (at_time (n_fmod V cc) (n_frq V cc) t)) _ (n_trnl V cc) (n_trnh V cc) reject)) as [ir|]; [|cbn in h; lia]. exists ir. split; auto. lia.
Qed.
Lemma segments_lengths reject cc r m duration : (forall t, t < duration -> length (response reject cc t) = m) -> forall sizes s x, s + list_sum sizes <= duration -> Forall (fun n => 0 < n) sizes ->
  In x (segments reject cc r s sizes) -> length (snd x) = m.
Proof.
  intros h. induction sizes as [|n sizes IH]; intros s x hs hp hi; [destruct hi|]. change (list_sum (n :: sizes)) with (n + list_sum sizes) in hs. inversion hp; subst. cbn [NoiseSpec.segments] in hi.
  destruct hi as [<-|hi]; [apply h; lia|]. apply IH with (s := s + n); auto. lia.
Qed.
Lemma list_sum_in x l : In x l -> x <= list_sum l.
Proof. induction l; intros h; [destruct h|]. change (list_sum (a :: l)) with (a + list_sum l). destruct h as [<-|h]; [lia|]. specialize (IHl h). lia. Qed.

Lemma step_ok_playable reject r duration x lead sizes n : playable_channel reject duration x -> (snd x = None -> lead = None) ->
  list_sum sizes + n <= duration -> 0 < n -> Forall (fun n => 0 < n) sizes -> step_ok reject r sizes n (x, lead).
Proof.
  intros (h1 & (amod & h2 & h3) & h4) hl hs hn hp. split; cbn [fst snd].
  - exists amod. split; auto. lia.
  - destruct lead as [lead|]; auto. destruct h4 as (_ & _ & c1 & c2 & m & hm & hr). { intros q. specialize (hl q). discriminate. }
    splits.
    + destruct (n_fmod V (fst x)); cbn in *; auto. lia.
    + destruct (n_wmod V (fst x)); cbn in *; auto. lia.
    + apply (playable_responds reject duration _ m hm hr). lia.
    + unfold fits. rewrite hr by lia. enough (length (snd (last ((lead, response reject (fst x) 0) :: segments reject (fst x) r 0 sizes) ([], []))) = m) by lia.
      destruct (segments reject (fst x) r 0 sizes) as [|y l] eqn:el.
      * cbn [last snd]. apply hr. lia.
      * apply (segments_lengths reject (fst x) r m duration hr sizes 0); auto; [lia|]. rewrite el.
        assert (last ((lead, response reject (fst x) 0) :: y :: l) ([], []) = last (y :: l) ([], [])) as -> by reflexivity.
        rewrite (app_removelast_last ([], []) (l := y :: l)) at 2 by discriminate. apply in_or_app. right. left. reflexivity.
Qed.

Lemma lead_ins_length l : forall r, length (fst (lead_ins l r)) = length l.
Proof.
  induction l as [|[cc [n|]] l IH]; intros r; cbn [NoiseSpec.lead_ins]; [reflexivity| |].
  - destruct (numbers n r) as [x r1]. specialize (IH r1). destruct (lead_ins l r1). cbn in *. lia.
  - specialize (IH r). destruct (lead_ins l r). cbn in *. lia.
Qed.
Lemma lead_ins_none l : forall r x lead, In (x, lead) (combine l (fst (lead_ins l r))) -> snd x = None -> lead = None.
Proof.
  induction l as [|[cc [n|]] l IH]; intros r x lead hi hs; cbn [NoiseSpec.lead_ins] in hi; [destruct hi| |].
  - destruct (numbers n r) as [y r1]. specialize (IH r1). destruct (lead_ins l r1). cbn [fst combine] in hi. destruct hi as [hi|hi]; [|apply (IH x); auto].
    inversion hi; subst. discriminate.
  - specialize (IH r). destruct (lead_ins l r). cbn [fst combine] in hi. destruct hi as [hi|hi]; [|apply (IH x); auto]. congruence.
Qed.

Lemma prepare_ok rate duration r c : playable rate duration c -> 0 < update_interval duration c ->
  exists c' c0 rest lead0 ls r1, event_channels rate c = (c0, Some (channel_length rate c0)) :: rest /\ n_use V c0 = true /\
    lead_ins (event_channels rate c) r = (Some lead0 :: ls, r1) /\ prepare rate duration r c = Some (Some c') /\
    noise_inv (nc_reject V R c) r1 c0 (channel_length rate c0) lead0 rest ls (update_interval duration c)
      (Nat.min (Nat.max (longest V (event_channels rate c)) (update_interval duration c)) (Z.to_nat (4 * rate))) [] c'.
Proof.
  intros (hr & hr2 & hd & (c0 & l & ec & hu) & hp) hres.
  set (reject := nc_reject V R c) in *. set (res := update_interval duration c) in *.
  unfold NoiseModel.prepare. unfold NoiseSpec.event_channels in *. rewrite ec in *. fold reject.
  set (rest := map (fun cc => (inherit c0 cc, if own_filter cc then Some (channel_length rate (inherit c0 cc)) else None)) l) in *.
  apply Forall_cons_iff in hp. destruct hp as [hp0 hp]. pose proof hp0 as (p1 & (amod & p2 & p3) & p4). cbn [fst snd] in p1, p2, p3, p4.
  destruct (p4 ltac:(discriminate)) as (q1 & q2 & q3 & q4 & m & hm & q5).
  rewrite ir_length_eq by lia. cbn [bind]. rewrite p2. cbn [is_some negb].
  rewrite prepare_channels_eq.
  2:{ apply Forall_forall. intros cc hi ho. rewrite Forall_forall in hp. specialize (hp (inherit c0 cc, Some (channel_length rate (inherit c0 cc)))).
      assert (playable_channel reject duration (inherit c0 cc, Some (channel_length rate (inherit c0 cc)))) as (_ & _ & w).
      { apply hp. subst rest. apply in_map_iff. exists cc. rewrite ho. auto. }
      cbn [fst snd] in w. destruct (w ltac:(discriminate)) as (w1 & w2 & _). lia. }
  cbn [bind]. fold rest.
  replace (is_some (n_fmod V c0) || is_some (n_wmod V c0) || existsb (fun cc => own_filter cc && (is_some (n_fmod V cc) || is_some (n_wmod V cc))) l) with (modulated c) by (unfold NoiseSpec.modulated; rewrite ec; reflexivity).
  fold (update_interval duration c). fold res. change (response_length rate (Z.min (n_trnl V c0) (n_trnh V c0))) with (channel_length rate c0).
  set (all := (c0, Some (channel_length rate c0)) :: rest) in *.
  assert (Z.to_nat (u32 (4 * rate)) = Z.to_nat (4 * rate)) as ->. { rewrite u32_small; [reflexivity|]. unfold two32. lia. }
  set (tl := Nat.min (Nat.max (longest V all) res) (Z.to_nat (4 * rate))).
  assert (Forall (playable_channel reject duration) all) as hall by (constructor; assumption).
  assert (longest V all <= Z.to_nat (4 * rate)) as hlong.
  { apply longest_bound. apply Forall_forall. intros [cc [n|]] hi; cbn [snd]; auto. rewrite Forall_forall in hall. destruct (hall _ hi) as (_ & _ & w). cbn [fst snd] in w. destruct (w ltac:(discriminate)) as (w1 & w2 & _).
    assert (n = channel_length rate cc) as ->. { destruct hi as [hi|hi]; [congruence|]. subst rest. apply in_map_iff in hi. destruct hi as (cx & hi & _). destruct (own_filter cx); congruence. }
    apply response_length_bound; lia. }
  assert (Forall (init_ok reject tl) all) as hinit.
  { apply Forall_forall. intros [cc o] hi. pose proof hall as hall'. rewrite Forall_forall in hall'. destruct (hall' _ hi) as (w0 & _ & w). cbn [fst snd] in *. split; [exact w0|]. cbn [fst snd]. destruct o as [n|]; auto.
    destruct (w ltac:(discriminate)) as (w1 & w2 & w3 & w4 & m' & w5 & w6). splits.
    - destruct hi as [hi|hi]; [congruence|]. subst rest. apply in_map_iff in hi. destruct hi as (cx & hi & _). destruct (own_filter cx) eqn:eo; [|congruence]. injection hi as <- _. unfold NoiseSpec.inherit.
      unfold NoiseSpec.own_filter in eo. destruct (n_use V cx); [reflexivity|discriminate].
    - pose proof (longest_in all (cc, Some n) n hi eq_refl). subst tl. lia.
    - destruct (n_fmod V cc); cbn in *; auto. lia.
    - destruct (n_wmod V cc); cbn in *; auto. lia.
    - apply (playable_responds reject duration cc m' w5 w6). lia. }
  set (b := existsb (fun x : nchannel * option nat => is_some (snd x)) rest).
  destruct (init_filters_ok reject tl all r [Some (junk tl); Some (junk tl); if b then Some (junk tl) else None] (junk tl) (junk tl) hinit eq_refl (junk_len tl) eq_refl (junk_len tl))
    as (chs & temps & t0 & t1 & e & g0 & l0 & g1 & l1 & g2 & co).
  rewrite e. cbn [bind].
  pose proof (lead_ins_length all r) as hll. pose proof (lead_ins_none all r) as hln. destruct (lead_ins all r) as [leads r1] eqn:el. cbn [fst snd] in *.
  assert (exists lead0 ls, leads = Some lead0 :: ls) as (lead0 & ls & ->).
  { subst all. cbn [NoiseSpec.lead_ins] in el. destruct (numbers (channel_length rate c0) r) as [x0 r0]. destruct (lead_ins rest r0). injection el as <- _. eauto. }
  set (c' := {| nc_reject := reject; nc_random := r1; nc_resolution := res; nc_temp := temps; nc_channels := chs |}).
  exists c', c0, rest, lead0, ls, r1. split; [reflexivity|]. split; [exact hu|]. split; [reflexivity|]. split; [reflexivity|].
  unfold noise_inv. subst c'. cbn [nc_reject nc_resolution nc_random nc_temp nc_channels]. splits; auto.
  - exists t0. auto.
  - exists t1. auto.
  - intros hb. fold b in hb. rewrite hb in g2. exists (junk tl). split; [|apply junk_len]. rewrite g2. reflexivity.
Qed.

Lemma event_sounds rate duration r c calls : playable rate duration c -> 0 < update_interval duration c ->
  Forall (call_fits V (event_channels rate c)) calls -> list_sum (map fst calls) <= duration ->
  Forall (fun call => Nat.min (update_interval duration c) (fst call) <= Z.to_nat (4 * rate)) calls ->
  exists c' outs c'', prepare rate duration r c = Some (Some c') /\ noise_run 0 calls c' = Some (outs, c'') /\
    sounds (event_signals (fun cc lead r1 => filtered_parts (nc_reject V R c) cc lead r1 (all_parts (update_interval duration c) (map fst calls))) (event_channels rate c) r) 0 calls outs.
Proof.
  intros hp hres hc hs ht. destruct (prepare_ok rate duration r c hp hres) as (c' & c0 & rest & lead0 & ls & r1 & ec & hu & el & ep & inv).
  set (reject := nc_reject V R c) in *. set (res := update_interval duration c) in *.
  pose proof hp as (hr & hr2 & hd & _ & hall). fold reject in hall. rewrite ec in *. set (all := (c0, Some (channel_length rate c0)) :: rest) in *.
  pose proof (lead_ins_none all r) as hln. unfold NoiseSpec.event_signals. rewrite el in *. cbn [fst] in hln.
  set (tl := Nat.min (Nat.max (longest V all) res) (Z.to_nat (4 * rate))) in *.
  assert (Forall (fun n => 0 < n) (map fst calls)) as hpos.
  { apply Forall_forall. intros n hi. apply in_map_iff in hi. destruct hi as (x & <- & hi). rewrite Forall_forall in hc. apply (hc x hi). }
  destruct (all_parts_ok res hres (map fst calls) hpos) as (a1 & a2 & a3).
  destruct (noise_run_ok reject r1 c0 (channel_length rate c0) lead0 rest ls hu res tl (all_parts res (map fst calls))) with (calls := calls) (sizes := @nil nat) (more := @nil nat) (c := c') as (outs & c2 & er & pr & _).
  - intros sizes n more ef. apply Forall_forall. intros [x lead] hi. 
    assert (list_sum sizes + n <= duration). { rewrite ef, list_sum_app in a1. change (list_sum (n :: more)) with (n + list_sum more) in a1. lia. }
    assert (Forall (fun n => 0 < n) (sizes ++ n :: more)) as hpn by (rewrite <- ef; exact a2). apply Forall_app in hpn. destruct hpn as [hpn1 hpn2]. inversion hpn2; subst.
    apply (step_ok_playable reject r1 duration x lead sizes n); auto.
    + rewrite Forall_forall in hall. apply hall. apply in_combine_l in hi. exact hi.
    + apply hln. exact hi.
  - exact hres.
  - rewrite app_nil_r. reflexivity.
  - exact inv.
  - apply a3. apply Forall_forall. intros n hi. apply in_map_iff in hi. destruct hi as (x & <- & hi). rewrite Forall_forall in ht. specialize (ht x hi). subst tl. lia.
  - apply Forall_forall. intros x hi. rewrite Forall_forall in hc. destruct (hc x hi) as [w1 w2]. split; auto.
  - exists c', outs, c2. split; [exact ep|]. split; [exact er|]. exact pr.
Qed.

Lemma mixed_ext_in f1 f2 g1 g2 ch t : g1 t = g2 t -> forall l ls x,
  (forall y lead, In (y, Some lead) (combine l ls) -> f1 (fst y) lead t = f2 (fst y) lead t) ->
  mixed (signals f1 g1 l ls) ch t x = mixed (signals f2 g2 l ls) ch t x.
Proof.
  intros hg. induction l as [|[cc n] l IH]; intros ls x hf; [reflexivity|]. destruct ls as [|y ls]; [reflexivity|].
  cbn [NoiseSpec.signals]. unfold NoiseSpec.mixed. cbn [fold_left].
  replace (match y with Some z => f1 cc z | None => g1 end t) with (match y with Some z => f2 cc z | None => g2 end t).
  2:{ destruct y as [lead|]; auto. symmetry. apply (hf (cc, n) lead). left. reflexivity. }
  apply IH. intros z lead hi. apply hf. right. exact hi.
Qed.
Lemma sounds_ext l1 l2 d : (forall ch t x, t < d -> mixed l1 ch t x = mixed l2 ch t x) -> forall calls t outs, t + list_sum (map fst calls) <= d -> sounds l1 t calls outs -> sounds l2 t calls outs.
Proof.
  intros h. induction calls as [|[n out] calls IH]; intros t outs hs; destruct outs as [|out' outs]; cbn [NoiseSpec.sounds]; auto.
  cbn [map fst] in hs. change (list_sum (n :: map fst calls)) with (n + list_sum (map fst calls)) in hs. intros (s1 & s2 & s3). splits; auto.
  - intros ch j x e. rewrite (s2 ch j x e). f_equal. destruct (Nat.ltb_spec j n); auto. apply h. lia.
  - apply IH; auto. lia.
Qed.
Lemma white_add r n m : white r 0 (n + m) = white r 0 n ++ white r n m.
Proof. rewrite white_app. reflexivity. Qed.
Lemma segments_const reject cc r : n_fmod V cc = None -> n_wmod V cc = None -> forall sizes s, exists whites,
  segments reject cc r s sizes = map (fun a => (a, response reject cc 0)) whites /\ concat whites = white r s (list_sum sizes).
Proof.
  intros e1 e2. assert (forall t, response reject cc t = response reject cc 0) as hc. { intros t. unfold NoiseSpec.response, at_time. rewrite e1, e2. reflexivity. }
  induction sizes as [|n sizes IH]; intros s; [exists []; split; reflexivity|]. destruct (IH (s + n)) as (ws & w1 & w2). exists (white r s n :: ws).
  cbn [NoiseSpec.segments map concat]. rewrite w1, w2, hc. split; auto. change (list_sum (n :: sizes)) with (n + list_sum sizes). symmetry. apply white_app.
Qed.
Lemma filtered_parts_const reject cc lead r sizes t : n_fmod V cc = None -> n_wmod V cc = None -> t < list_sum sizes ->
  filtered_parts reject cc lead r sizes t = filtered V R zero add mul draw ir_f pack reject cc lead r t.
Proof.
  intros e1 e2 ht. unfold NoiseSpec.filtered_parts, NoiseSpec.filtered. destruct (segments_const reject cc r e1 e2 sizes 0) as (ws & w1 & w2). rewrite w1.
  change ((lead, response reject cc 0) :: map (fun a => (a, response reject cc 0)) ws) with (map (fun a => (a, response reject cc 0)) (lead :: ws)).
  rewrite overlap_add_same. cbn [concat]. rewrite w2. replace (list_sum sizes) with (S t + (list_sum sizes - S t)) by lia. rewrite white_add, app_assoc, conv_sample_app.
  rewrite app_length, white_length. bd; [reflexivity|lia].
Qed.

Lemma event_sounds_steady rate duration r c calls : playable rate duration c -> modulated c = false ->
  Forall (call_fits V (event_channels rate c)) calls -> list_sum (map fst calls) <= duration -> Forall (fun call => fst call <= Z.to_nat (4 * rate)) calls ->
  exists c' outs c'', prepare rate duration r c = Some (Some c') /\ noise_run 0 calls c' = Some (outs, c'') /\
    sounds (event_signals (filtered V R zero add mul draw ir_f pack (nc_reject V R c)) (event_channels rate c) r) 0 calls outs.
Proof.
  intros hp hm hc hs ht. assert (update_interval duration c = duration) as hu by (unfold NoiseSpec.update_interval; rewrite hm; reflexivity).
  destruct (event_sounds rate duration r c calls hp) as (c' & outs & c2 & e1 & e2 & hso); auto.
  { rewrite hu. apply hp. }
  { eapply Forall_impl; [|exact ht]. intros x q. cbn beta in *. lia. }
  exists c', outs, c2. split; [exact e1|]. split; [exact e2|]. revert hso. apply (sounds_ext _ _ (list_sum (map fst calls))); [|lia].
  intros ch t x hlt. rewrite hu.
  assert (list_sum (all_parts duration (map fst calls)) = list_sum (map fst calls)) as hsum.
  { apply all_parts_ok; [apply hp|]. apply Forall_forall. intros n hi. apply in_map_iff in hi. destruct hi as (y & <- & hi). rewrite Forall_forall in hc. apply (hc y hi). }
  unfold NoiseSpec.event_signals. pose proof (lead_ins_none (event_channels rate c) r) as hn. destruct (lead_ins (event_channels rate c) r) as [leads r1]. cbn [fst] in hn.
  assert (forall y lead, In (y, Some lead) (combine (event_channels rate c) leads) -> n_fmod V (fst y) = None /\ n_wmod V (fst y) = None) as hmod.
  { intros y lead hi. assert (snd y <> None) as hy by (intros q; specialize (hn _ _ hi q); discriminate). apply in_combine_l in hi. unfold NoiseSpec.event_channels in hi. unfold NoiseSpec.modulated in hm.
    destruct (nc_channels V R c) as [|c0 l]; [destruct hi|]. apply orb_false_elim in hm. destruct hm as [hm hm2]. apply orb_false_elim in hm. destruct hm as [hm0 hm1].
    destruct (n_fmod V c0) as [|] eqn:f0; [discriminate|]. destruct (n_wmod V c0) as [|] eqn:w0; [discriminate|].
    destruct hi as [<-|hi]; [split; assumption|]. apply in_map_iff in hi. destruct hi as (cc & <- & hi). cbn [fst snd] in *.
    destruct (own_filter cc) eqn:eo; [|congruence]. 
    assert (own_filter cc && (is_some (n_fmod V cc) || is_some (n_wmod V cc)) = false) as hq.
    { destruct (own_filter cc && (is_some (n_fmod V cc) || is_some (n_wmod V cc))) eqn:eq; auto. assert (existsb (fun cc => own_filter cc && (is_some (n_fmod V cc) || is_some (n_wmod V cc))) l = true) by (apply existsb_exists; exists cc; auto). congruence. }
    rewrite eo in hq. cbn [andb] in hq. apply orb_false_elim in hq. destruct hq as [hq1 hq2]. unfold NoiseSpec.inherit. rewrite eo. unfold NoiseSpec.own_filter in eo. destruct (n_use V cc); [|discriminate]. cbn [n_fmod n_wmod].
    destruct (n_fmod V cc); [discriminate|]. destruct (n_wmod V cc); [discriminate|]. auto. }
  destruct (event_channels rate c) as [|[c0 n0] l] eqn:ec; [reflexivity|]. destruct leads as [|[lead0|] ls]; [reflexivity| |reflexivity].
  apply mixed_ext_in.
  - destruct (hmod (c0, n0) lead0) as [m1 m2]; [left; reflexivity|]. apply filtered_parts_const; auto. lia.
  - intros y lead hi. destruct (hmod y lead hi) as [m1 m2]. apply filtered_parts_const; auto. lia.
Qed.


(** ** limits *)
Lemma random_array_short n r out : length out < n -> random_array (fun r => Some (draw r)) r n out = None.
Proof.
  intros h. unfold random_array. rewrite (for_split _ 0 (length out) n) by lia.
  change (for_ 0 (length out) _ _) with (random_array (fun r => Some (draw r)) r (length out) out). rewrite random_array_numbers by lia. cbn [bind].
  unfold for_. replace (n - length out) with (S (n - length out - 1)) by lia. cbn [for_from bind]. destruct (draw _) as [x r1]. cbn [bind].
  rewrite aset_none; [reflexivity|]. rewrite app_length, numbers_length, skipn_length. lia.
Qed.
Lemma fill_noise_short r n temps t0 : get_temp temps 0 = Some t0 -> length t0 < n -> fill_noise r n temps = None.
Proof. intros e h. unfold NoiseModel.fill_noise. rewrite e. cbn [bind]. rewrite random_array_short by exact h. reflexivity. Qed.

Lemma event_large_call rate duration r c n out : playable rate duration c -> modulated c = false -> Z.to_nat (4 * rate) < n <= duration ->
  exists c', prepare rate duration r c = Some (Some c') /\ noise_run 0 [(n, out)] c' = None.
Proof.
  intros hp hm hn. assert (update_interval duration c = duration) as hu by (unfold NoiseSpec.update_interval; rewrite hm; reflexivity).
  destruct (prepare_ok rate duration r c hp) as (c' & c0 & rest & lead0 & ls & r1 & ec & hu0 & el & ep & inv). { rewrite hu. apply hp. }
  exists c'. split; [exact ep|]. destruct inv as (i1 & i2 & i3 & (t0 & e0 & l0) & _). cbn [NoiseModel.noise_run]. unfold NoiseModel.generate. rewrite i2, hu.
  destruct (block_generate_parts duration 0 (0 + n) (nconfig * list (list V)) generate_block (c', out) ltac:(lia) ltac:(lia)) as (eb & es & _). rewrite eb.
  replace (0 + n - 0) with n by lia. unfold parts. rewrite Nat.min_r by lia. rewrite Nat.div_same by lia. cbn [repeat app run_tiles].
  unfold NoiseModel.generate_block. rewrite (fill_noise_short _ _ _ _ e0) by lia. reflexivity.
Qed.
Lemma longest_one x n : longest V [(x, Some n)] = n.
Proof. unfold longest. cbn [fold_left snd]. bd; lia. Qed.
Lemma transition_one rate duration r c c0 l : (0 < rate)%Z -> (4 * rate < 2 ^ 32)%Z -> nc_channels V R c = c0 :: l -> n_amod V c0 <> None ->
  Z.min (n_trnl V c0) (n_trnh V c0) = 1%Z -> prepare rate duration r c = None.
Proof.
  intros h1 h2 ec ha ht. unfold NoiseModel.prepare. rewrite ec, ht. rewrite ir_length_eq by lia. cbn [bind]. destruct (n_amod V c0); [|congruence]. cbn [is_some negb].
  destruct (prepare_channels rate c0 l) as [[l' m]|]; [|reflexivity]. cbn [bind].
  set (tl := Nat.min _ (Z.to_nat (u32 (4 * rate)))). cbn [NoiseModel.init_filters]. unfold NoiseModel.filter_state.
  rewrite (fill_noise_short _ _ _ (junk tl)); [reflexivity|reflexivity|]. rewrite junk_len.
  assert (tl <= Z.to_nat (4 * rate)). { subst tl. rewrite u32_small by (unfold two32; lia). lia. }
  unfold response_length. rewrite Z.div_1_r. replace (4 * rate + 1 - 1)%Z with (4 * rate)%Z by lia.
  replace (Nat.even (Z.to_nat (4 * rate))) with true; [lia|]. symmetry. apply Nat.even_spec. exists (Z.to_nat (2 * rate)). lia.
Qed.

(** ** defaults *)
Notation with_defaults := (with_defaults V).
Lemma default_array A (own first : option (list A)) : array_default own first (or_else own first).
Proof. destruct own; split; intros; cbn; congruence. Qed.
Lemma default_number own first : number_default own first (if nonzero own then own else first).
Proof. unfold nonzero. destruct (Z.eqb_spec own 0); split; intros; cbn [negb]; congruence. Qed.
Lemma prepare_channel_defaults rate c0 cc cc' len m : prepare_channel rate c0 cc = Some (cc', len, m) -> with_defaults c0 cc cc'.
Proof.
  unfold NoiseModel.prepare_channel, NoiseSpec.with_defaults, NoiseSpec.own_filter. destruct (n_use V cc) eqn:eu.
  - change (negb (n_frq V cc =? 0)%Z) with (nonzero (n_frq V cc)). change (negb (n_wdt V cc =? 0)%Z) with (nonzero (n_wdt V cc)). change (negb (n_trnl V cc =? 0)%Z) with (nonzero (n_trnl V cc)). change (negb (n_trnh V cc =? 0)%Z) with (nonzero (n_trnh V cc)).
    destruct (nonzero (n_frq V cc) || _ || _ || _ || _ || _) eqn:e; cbn [andb].
    + destruct (ir_length rate _) as [n|]; [|discriminate]. cbn [bind]. intros q. injection q as <- _ _. cbn [n_channel n_amp n_amod n_fmod n_wmod n_wdt n_trnl n_trnh n_frq].
      split; [reflexivity|]. split; [|discriminate]. intros _. split; [reflexivity|]. split; [apply default_array|]. intros _. split; [apply default_array|]. split; [apply default_array|].
      split; [apply default_number|]. split; apply default_number.
    + intros q. injection q as <- _ _. cbn [n_channel n_amp n_amod n_fmod n_wmod n_wdt n_trnl n_trnh n_frq].
      split; [reflexivity|]. split; [|discriminate]. intros _. split; [reflexivity|]. split; [apply default_array|]. discriminate.
  - intros q. injection q as <- _ _. cbn [n_channel n_amp n_amod n_fmod n_wmod n_wdt n_trnl n_trnh n_frq]. split; [reflexivity|]. split; [discriminate|]. intros _. repeat split.
Qed.
Lemma prepare_channels_defaults rate c0 : forall l l' m, prepare_channels rate c0 l = Some (l', m) -> Forall2 (fun cc x => with_defaults c0 cc (fst x)) l l'.
Proof.
  induction l as [|cc l IH]; intros l' m e; cbn [NoiseModel.prepare_channels] in e; [injection e as <- _; constructor|].
  destruct (prepare_channel rate c0 cc) as [[[cc' len] m1]|] eqn:e1; [|discriminate]. cbn [bind] in e. destruct (prepare_channels rate c0 l) as [[r ms]|] eqn:e2; [|discriminate].
  cbn [bind] in e. injection e as <- _. constructor; [|apply (IH r ms); reflexivity]. cbn [fst]. apply (prepare_channel_defaults _ _ _ _ _ _ e1).
Qed.
Lemma apply_filter_same reject cc i n k temps r cc' temps' : apply_filter reject cc i n k temps = Some (r, cc', temps') -> exists st h, cc' = set_filter cc st h.
Proof.
  unfold NoiseModel.apply_filter. intros e. repeat (match type of e with bind ?x _ = _ => destruct x as [?|] eqn:?; [|discriminate e] end; cbn [bind] in e; repeat match goal with p : _ * _ |- _ => destruct p end).
  injection e as _ <- _. eauto.
Qed.
Lemma init_filters_same reject : forall l r temps chs r' temps' ok, init_filters reject l r temps = Some (chs, r', temps', ok) ->
  Forall2 (fun x cc => exists st h, cc = set_filter (fst x) st h) l chs.
Proof.
  induction l as [|[cc [n|]] l IH]; intros r temps chs r' temps' ok e; cbn [NoiseModel.init_filters] in e.
  - injection e as <- _ _ _. constructor.
  - unfold NoiseModel.filter_state in e. destruct (fill_noise r n temps) as [[r1 tm]|]; [|discriminate]. cbn [bind] in e. destruct (apply_filter reject cc 0 n 1 tm) as [[[s cc'] tm']|] eqn:ea; [|discriminate].
    cbn [bind] in e. apply apply_filter_same in ea. destruct s.
    + destruct (init_filters reject l r1 tm') as [[[[chs' r2] tm2] ok2]|] eqn:ei; [|discriminate]. cbn [bind] in e. injection e as <- _ _ _. constructor; [exact ea|]. apply (IH _ _ _ _ _ _ ei).
    + injection e as <- _ _ _. constructor; [exact ea|]. clear. induction l as [|x l IHl]; cbn [map]; constructor; auto. exists (n_state V (fst x)), (n_heap V (fst x)). destruct (fst x). reflexivity.
  - destruct (init_filters reject l r temps) as [[[[chs' r2] tm2] ok2]|] eqn:ei; [|discriminate]. cbn [bind] in e. injection e as <- _ _ _. constructor; [|apply (IH _ _ _ _ _ _ ei)].
    exists (n_state V cc), (n_heap V cc). destruct cc. reflexivity.
Qed.
Lemma prepare_defaults rate duration r c c0 l c' : nc_channels V R c = c0 :: l -> prepare rate duration r c = Some (Some c') ->
  exists c0' l', nc_channels V R c' = c0' :: l' /\ Forall2 (with_defaults c0) l l'.
Proof.
  intros ec. unfold NoiseModel.prepare. rewrite ec. destruct (ir_length _ _) as [len0|]; [|discriminate]. cbn [bind]. destruct (negb _); [discriminate|].
  destruct (prepare_channels rate c0 l) as [[l1 m]|] eqn:e1; [|discriminate]. cbn [bind].
  destruct (init_filters _ _ _ _) as [[[[chs r1] temps] ok]|] eqn:e2; [|discriminate]. cbn [bind]. destruct ok; [|discriminate]. intros q. injection q as <-. cbn [nc_channels].
  apply init_filters_same in e2. inversion e2 as [|x cc l0 l2 h1 h2]; subst. exists cc, l2. split; [reflexivity|].
  apply prepare_channels_defaults in e1. clear -e1 h2. revert l2 h2. induction e1 as [|a b l l1 w e IH]; intros l2 h; inversion h as [|x y ? ? (st & hp & ->) h']; subst; constructor; auto.
Qed.
End Proofs.

Lemma event_multiples :
  forall (V R : Type) (zero : V) (add mul : V -> V -> V) (limit : V -> V) (draw : R -> V * R) (ir_f : nat -> list Z -> option (list V))
    (pack : Z -> Z -> Z -> Z -> bool -> list Z) (args_size : nat) (junk : nat -> list V) (junkb : nat -> list Z),
  (forall a b c d e, length (pack a b c d e) = args_size) -> (forall n, length (junk n) = n) -> (forall n, length (junkb n) = n) ->
  forall (rate : Z) (duration : nat) (r : R) (c : nconfig V R) (calls : list (nat * list (list V))) (last : nat * list (list V)),
  playable V R ir_f pack rate duration c -> 0 < update_interval V R duration c <= Z.to_nat (4 * rate) ->
  Forall (call_fits V (event_channels V R rate c)) (calls ++ [last]) ->
  Forall (fun call => fst call mod update_interval V R duration c = 0) calls -> list_sum (map fst calls) + fst last <= duration ->
  exists c' outs c'', prepare V R zero add mul draw ir_f pack junk junkb rate duration r c = Some (Some c') /\
    noise_run V R zero add mul limit draw ir_f pack junk junkb 0 (calls ++ [last]) c' = Some (outs, c'') /\
    sounds V add mul limit (event_signals V R draw (fun cc lead r1 =>
      filtered_parts V R zero add mul draw ir_f pack (nc_reject V R c) cc lead r1 (parts (update_interval V R duration c) (list_sum (map fst calls) + fst last)))
      (event_channels V R rate c) r) 0 (calls ++ [last]) outs.
Proof.
  intros V R zero add mul limit draw ir_f pack n junk junkb h1 h2 h3 rate duration r c calls last hp hi hc hm hs.
  rewrite <- all_parts_multiples.
  - replace (map fst calls ++ [fst last]) with (map fst (calls ++ [last])) by (rewrite map_app; reflexivity).
    apply (event_sounds V R zero add mul limit draw ir_f pack n h1 junk junkb h2 h3); auto.
    + lia.
    + rewrite map_app, list_sum_app. cbn [map list_sum fold_right]. lia.
    + apply Forall_forall. intros. lia.
  - lia.
  - apply Forall_forall. intros x hx. apply in_map_iff in hx. destruct hx as (y & <- & hx). apply Forall_app in hc. destruct hc as [hc _]. rewrite Forall_forall in hc, hm. split; [apply (hc y hx)|apply (hm y hx)].
  - apply Forall_app in hc. destruct hc as [_ hc]. inversion hc as [|? ? q]; subst. apply q.
Qed.
Lemma event_in_bounds :
  forall (V R : Type) (zero : V) (add mul : V -> V -> V) (limit : V -> V) (draw : R -> V * R) (ir_f : nat -> list Z -> option (list V))
    (pack : Z -> Z -> Z -> Z -> bool -> list Z) (args_size : nat) (junk : nat -> list V) (junkb : nat -> list Z),
  (forall a b c d e, length (pack a b c d e) = args_size) -> (forall n, length (junk n) = n) -> (forall n, length (junkb n) = n) ->
  forall (rate : Z) (duration : nat) (r : R) (c : nconfig V R) (calls : list (nat * list (list V))),
  playable V R ir_f pack rate duration c -> 0 < update_interval V R duration c ->
  Forall (call_fits V (event_channels V R rate c)) calls -> list_sum (map fst calls) <= duration ->
  Forall (fun call => Nat.min (update_interval V R duration c) (fst call) <= Z.to_nat (4 * rate)) calls ->
  exists c', prepare V R zero add mul draw ir_f pack junk junkb rate duration r c = Some (Some c') /\
    noise_run V R zero add mul limit draw ir_f pack junk junkb 0 calls c' <> None.
Proof.
  intros V R zero add mul limit draw ir_f pack n junk junkb h1 h2 h3 rate duration r c calls hp hi hc hs ht.
  destruct (event_sounds V R zero add mul limit draw ir_f pack n h1 junk junkb h2 h3 rate duration r c calls hp hi hc hs ht) as (c' & outs & c2 & e1 & e2 & _).
  exists c'. split; [exact e1|]. rewrite e2. discriminate.
Qed.
