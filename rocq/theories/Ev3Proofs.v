From Verif Require Import Base SeqModel SeqSpec SeqLifeSpec SeqRenderSpec EvModel EvSpec Ev2Proofs.
From Verif Require EvProofs SeqRenderFinal.
Open Scope nat_scope.

Section Wave.
Variable V : Type.
Notation channel_t := (wave_channel V).
Notation config := (wave_config V).

(** ** prepare *)
Lemma prepare_correct (c : config) : 0 < channel_count _ c <= length (channel_config _ c) ->
  exists c', wave_prepare V c = Some c' /\ wvf _ c' = wvf _ c /\ wvf_size _ c' = wvf_size _ c /\ channel_count _ c' = channel_count _ c /\
    length (channel_config _ c') = length (channel_config _ c) /\
    (exists first, nth_error (channel_config _ c) 0 = Some first /\ nth_error (channel_config _ c') 0 = Some first /\
      (forall i cc, 0 < i < channel_count _ c -> nth_error (channel_config _ c) i = Some cc -> nth_error (channel_config _ c') i = Some (prepare_channel V first cc))) /\
    (forall i, channel_count _ c <= i -> nth_error (channel_config _ c') i = nth_error (channel_config _ c) i).
Proof.
  intros [h0 h]. set (L := channel_config _ c) in *. destruct (nth_error_some L 0) as [first hf]; [lia|].
  unfold wave_prepare. fold L.
  destruct (for_inv (fun i l => length l = length L /\ nth_error l 0 = Some first /\
      (forall j cc, 0 < j < i -> nth_error L j = Some cc -> nth_error l j = Some (prepare_channel V first cc)) /\
      (forall j, i <= j -> nth_error l j = nth_error L j))
    (fun i l => cc <- aget l i ;; first <- aget l 0 ;; aset l i (prepare_channel V first cc)) 1 (channel_count _ c) L) as [l [e (i1 & i2 & i3 & i4)]].
  - lia.
  - splits; auto. intros; lia.
  - intros i l hi (i1 & i2 & i3 & i4). destruct (nth_error_some L i) as [cc hcc]; [lia|]. unfold aget. rewrite i4 by lia. rewrite hcc. cbn [bind]. rewrite i2. cbn [bind].
    destruct (aset_some l i (prepare_channel V first cc)) as [l' e']; [lia|]. exists l'. split; [exact e'|]. pose proof (aset_length _ _ _ _ e') as hl. splits.
    + lia.
    + rewrite (aset_get _ _ _ _ 0 e'). destruct (Nat.eqb_spec 0 i); [lia|]. exact i2.
    + intros j cj hj hcj. rewrite (aset_get _ _ _ _ j e'). destruct (Nat.eqb_spec j i) as [->|ne]; [congruence|]. apply i3; [lia|exact hcj].
    + intros j hj. rewrite (aset_get _ _ _ _ j e'). destruct (Nat.eqb_spec j i); [lia|]. apply i4. lia.
  - rewrite e. cbn [bind]. eexists. split; [reflexivity|]. cbn [set_channels wvf wvf_size channel_count channel_config]. splits; auto. exists first. splits; auto.
Qed.
Lemma prepare_channel_inherited first cc : inherited V first cc (prepare_channel V first cc).
Proof.
  unfold inherited, prepare_channel, set_or. destruct (use V cc) eqn:u; cbn; splits; auto; try discriminate; intros _; splits; auto;
    try (intros h; destruct (Z.eqb_spec (frq V cc) 0); congruence);
    intros h; unfold default_pointer; match goal with |- context [match ?x with _ => _ end] => destruct x end; congruence.
Qed.
Lemma inherited_unique first cc a b : inherited V first cc a -> inherited V first cc b -> a = b.
Proof.
  intros (h1 & h2 & h3) (k1 & k2 & k3). destruct (use V cc) eqn:u.
  - destruct (h3 eq_refl) as (p1 & p2 & p3 & p4 & p5 & p6 & p7 & p8), (k3 eq_refl) as (q1 & q2 & q3 & q4 & q5 & q6 & q7 & q8).
    assert (hs : forall A (x y u v : option A), set_or x y u -> set_or x y v -> u = v).
    { intros A x y u0 v [s1 s2] [t1 t2]. destruct x; [rewrite s1, t1 by discriminate; reflexivity|rewrite s2, t2 by reflexivity; reflexivity]. }
    pose proof (hs _ _ _ _ _ p4 q4). pose proof (hs _ _ _ _ _ p5 q5). pose proof (hs _ _ _ _ _ p6 q6).
    assert (frq V a = frq V b) by (destruct (Z.eq_dec (frq V cc) 0) as [e|e]; [rewrite p8, q8 by exact e; reflexivity|rewrite p7, q7 by exact e; reflexivity]).
    destruct a, b. cbn in *. congruence.
  - destruct (h2 eq_refl) as (p1 & p2 & p3 & p4 & p5 & p6 & p7), (k2 eq_refl) as (q1 & q2 & q3 & q4 & q5 & q6 & q7). destruct a, b. cbn in *. congruence.
Qed.
Lemma prepare_channel_first first cc : use _ first = true \/ True -> prepare_channel V first (prepare_channel V first cc) = prepare_channel V first cc.
Proof.
  intros _. unfold prepare_channel. destruct cc as [am ap ch fm fr ph pm us], first as [am1 ap1 ch1 fm1 fr1 ph1 pm1 us1]; cbn. destruct us; cbn.
  - f_equal; unfold default_pointer; try (destruct am, am1; reflexivity); try (destruct fm, fm1; reflexivity); try (destruct pm, pm1; reflexivity).
    destruct (Z.eqb_spec fr 0); [destruct (Z.eqb_spec fr1 0); auto|destruct (Z.eqb_spec fr 0); congruence].
  - destruct us1; cbn; [|reflexivity]. f_equal; unfold default_pointer; try (destruct am1; reflexivity); try (destruct fm1; reflexivity); try (destruct pm1; reflexivity).
    destruct (fr1 =? 0)%Z; reflexivity.
Qed.
Lemma prepare_inherits (c : config) : 0 < channel_count _ c <= length (channel_config _ c) ->
  exists c', wave_prepare V c = Some c' /\ wvf _ c' = wvf _ c /\ wvf_size _ c' = wvf_size _ c /\ channel_count _ c' = channel_count _ c /\
    length (channel_config _ c') = length (channel_config _ c) /\
    (exists first, nth_error (channel_config _ c) 0 = Some first /\ nth_error (channel_config _ c') 0 = Some first /\
      (forall i cc, 0 < i < channel_count _ c -> nth_error (channel_config _ c) i = Some cc ->
        exists cc', nth_error (channel_config _ c') i = Some cc' /\ inherited V first cc cc')) /\
    (forall i, channel_count _ c <= i -> nth_error (channel_config _ c') i = nth_error (channel_config _ c) i).
Proof.
  intros h. destruct (prepare_correct c h) as (c' & h1 & h2 & h3 & h4 & h5 & (first & f1 & f2 & f3) & h6).
  exists c'. splits; auto. exists first. splits; auto. intros i cc hi hcc. eexists. split; [apply f3; eauto|]. apply prepare_channel_inherited.
Qed.
Lemma prepare_idempotent (c c' : config) : 0 < channel_count _ c <= length (channel_config _ c) -> wave_prepare V c = Some c' -> wave_prepare V c' = Some c'.
Proof.
  intros h e. destruct (prepare_correct c h) as (c1 & e1 & k1 & k2 & k3 & k4 & (first & f1 & f2 & f3) & k5). rewrite e in e1. injection e1 as <-.
  destruct (prepare_correct c') as (c2 & e2 & m1 & m2 & m3 & m4 & (first' & g1 & g2 & g3) & m5); [rewrite k3, k4; exact h|]. rewrite e2. f_equal.
  assert (first' = first) by congruence. subst first'.
  assert (channel_config _ c2 = channel_config _ c').
  { apply nth_error_ext. intros i. destruct (Nat.eq_dec i 0) as [->|n0]; [congruence|]. destruct (Nat.lt_ge_cases i (channel_count _ c)).
    - destruct (nth_error_some (channel_config V c) i) as [cc hcc]; [lia|]. specialize (f3 i cc ltac:(lia) hcc).
      rewrite (g3 i _ ltac:(lia) f3), f3. rewrite prepare_channel_first; auto.
    - apply m5. lia. }
  destruct c2, c'. cbn in *. congruence.
Qed.
Lemma prepare_single (c : config) : channel_count _ c <= 1 -> wave_prepare V c = Some c.
Proof. intros h. unfold wave_prepare. rewrite for_empty by lia. destruct c; reflexivity. Qed.
Lemma prepare_too_many (c : config) : 1 < channel_count _ c -> length (channel_config _ c) < channel_count _ c -> wave_prepare V c = None.
Proof.
  intros h1 h. unfold wave_prepare.
  destruct (for_ 1 (channel_count V c) _ (channel_config V c)) as [l|] eqn:e; [|reflexivity]. exfalso.
  set (N := length (channel_config _ c)) in *.
  set (body := fun i l => cc <- aget l i ;; first <- aget l 0 ;; aset l i (prepare_channel V first cc)) in e.
  assert (hlen : forall a b l l', a <= b -> for_ a b body l = Some l' -> length l' = length l).
  { intros a b l0 l' hab e0. refine (for_inv_partial (fun _ x => length x = length l0) body a b l0 l' hab eq_refl _ e0).
    intros i s s' _ hs es. unfold body in es. destruct (aget s i); [|discriminate]. cbn [bind] in es. destruct (aget s 0); [|discriminate]. cbn [bind] in es.
    apply aset_length in es. congruence. }
  destruct (Nat.eq_dec N 0) as [z|z].
  - rewrite (for_split _ 1 2) in e by lia. destruct (for_ 1 2 body (channel_config V c)) as [l1|] eqn:e1; [|discriminate].
    unfold for_ in e1. cbn [Nat.sub for_from] in e1. unfold body in e1 at 1. destruct (channel_config V c); [cbn in e1; discriminate|cbn in N; lia].
  - rewrite (for_split _ 1 N) in e by lia. destruct (for_ 1 N body (channel_config V c)) as [l1|] eqn:e1; [|discriminate]. cbn [bind] in e.
    apply hlen in e1; [|lia]. unfold for_ in e. destruct (channel_count V c - N) eqn:ed; [lia|]. cbn [for_from] in e. unfold body in e at 1.
    assert (en : aget l1 N = None) by (unfold aget; apply nth_error_None; unfold N; lia). rewrite en in e. cbn [bind] in e. discriminate.
Qed.

(** ** contract of wave events *)
Variables add mul : V -> V -> V.
Variable silence : V.
Lemma small_xconfig c start k : channel_count V c <= length (channel_config V c) -> wave_small V c -> wave_small V (xconfig V c start k).
Proof.
  intros h hs. unfold wave_small in *. destruct (xconfig_channels V add mul silence c start k h) as [-> _].
  unfold xchannels. apply Forall_forall. intros cc hcc. apply in_map_iff in hcc. destruct hcc as (cc' & <- & hin). rewrite Forall_forall in hs. exact (hs _ hin).
Qed.
Lemma xconfig_zero c : xconfig V c 0 0 = c.
Proof.
  unfold xconfig, xchannels. cbn [xphase]. rewrite (map_ext _ (fun cc => cc)) by (intros []; reflexivity). rewrite map_id, firstn_skipn. destruct c; reflexivity.
Qed.
Lemma wave_plays channels (e : event config) c n :
  (if ev_prepare _ e then wave_prepare V (ev_data _ e) = Some c else ev_data _ e = c) ->
  wave_valid V channels n c -> wave_small V c -> ev_end _ e - ev_start _ e <= n ->
  plays (frame V) config (wave_event_prepare V) (wave_event_generate V add mul channels) e 0 (wave_stage V add mul silence c 0).
Proof.
  intros hp hv hs hn. pose proof hv as (w1 & _).
  exists (fun e pos => ev_end _ e - ev_start _ e <= n /\
    if ev_prepare _ e then pos = 0 /\ wave_prepare V (ev_data _ e) = Some c else ev_data _ e = xconfig V c 0 pos). split.
  - split; [exact hn|]. destruct (ev_prepare config e); auto. rewrite hp, xconfig_zero. reflexivity.
  - intros e1 pos (h1 & h2). split; intros hpr; rewrite hpr in h2.
    + destruct h2 as [-> h2]. unfold wave_event_prepare. rewrite h2. cbn [bind]. eexists. split; [reflexivity|]. split; [repeat split; auto|].
      cbn. split; [exact h1|]. rewrite xconfig_zero. reflexivity.
    + intros q o rest hq1 hq2 ho. unfold wave_event_generate. rewrite h2.
      pose proof (xconfig_valid V add mul silence channels n c 0 pos hv) as hv1.
      pose proof (wave_generate_exact V add mul silence channels pos o rest n _ hv1 ltac:(lia)) as eg. replace (pos + length o) with q in eg by lia. rewrite eg. cbn [bind].
      eexists. split.
      * f_equal. f_equal. f_equal. f_equal. apply mapi_ext. intros i f hi.
        destruct (xconfig_channels V add mul silence c 0 pos w1) as [-> _]. rewrite (xstage_later V add mul silence c 0 pos) by lia.
        apply (xstage_sum V add mul silence channels n); auto.
      * split; [repeat split; auto|]. cbn. rewrite hpr. split; [reflexivity|]. split; [exact h1|]. rewrite ho.
        rewrite (xconfig_later V add mul silence) by auto. f_equal. lia.
Qed.
End Wave.

Section Map.
Variables (F D M : Type).
Variable zero : F.
Variable prepare : event D -> option (event D).
Variable generate : nat -> nat -> list F -> event D -> option (list F * event D * bool).
Variable map_inplace : nat -> nat -> list F -> M -> option (list F * M * bool).
Variable map_apart : nat -> nat -> list F -> list F -> M -> option (list F * M * bool).
Notation mconfig := (map_config D M).

Lemma map_plays_state (Rm : M -> nat -> Prop) (gen : nat -> nat -> list F -> event mconfig -> option (list F * event mconfig * bool))
  (g h : stage F) (e : event mconfig) pos :
  (forall R, keeps_contract F D prepare generate g R -> forall e pos c o rest, R (mc_event _ _ (ev_data _ e)) pos -> Rm (mc_state _ _ (ev_data _ e)) pos ->
    ev_prepare _ (mc_event _ _ (ev_data _ e)) = false ->
    pos <= c -> c <= ev_end _ (mc_event _ _ (ev_data _ e)) - ev_start _ (mc_event _ _ (ev_data _ e)) -> length o = c - pos ->
    exists inner s, gen pos c (o ++ rest) e = Some (mapi h pos o ++ rest, with_data e {| mc_event := inner; mc_state := s |} (ev_free _ e), true) /\
      same D inner (mc_event _ _ (ev_data _ e)) /\ ev_prepare _ inner = false /\ R inner c /\ Rm s c) ->
  plays F D prepare generate (mc_event _ _ (ev_data _ e)) pos g -> Rm (mc_state _ _ (ev_data _ e)) pos ->
  (ev_prepare _ e = false -> ev_prepare _ (mc_event _ _ (ev_data _ e)) = false) ->
  ev_end _ e - ev_start _ e <= ev_end _ (mc_event _ _ (ev_data _ e)) - ev_start _ (mc_event _ _ (ev_data _ e)) ->
  plays F mconfig (map_prepare D M prepare) gen e pos h.
Proof.
  intros hgen (R & hr & hk) hm hpp hlen.
  exists (fun e pos => R (mc_event _ _ (ev_data _ e)) pos /\ Rm (mc_state _ _ (ev_data _ e)) pos /\
    (ev_prepare _ e = false -> ev_prepare _ (mc_event _ _ (ev_data _ e)) = false) /\
    ev_end _ e - ev_start _ e <= ev_end _ (mc_event _ _ (ev_data _ e)) - ev_start _ (mc_event _ _ (ev_data _ e))). split; [splits; auto|].
  clear e pos hr hm hpp hlen. intros e pos (h1 & h2 & h3 & h4). split; intros hp.
  - unfold map_prepare. destruct (ev_prepare D (mc_event D M (ev_data mconfig e))) eqn:ep.
    + destruct (hk _ _ h1) as [hk1 _]. destruct (hk1 ep) as (i' & e1 & (s1 & s2 & s3 & s4) & r1). rewrite e1. cbn [option_map bind].
      eexists. split; [reflexivity|]. split; [repeat split; auto|]. cbn. splits; auto. rewrite s2, s3. exact h4.
    + cbn [bind]. eexists. split; [reflexivity|]. split; [repeat split; auto|]. cbn. splits; auto.
  - intros c o rest hc1 hc2 ho. destruct (hgen R hk e pos c o rest h1 h2 (h3 hp) hc1 ltac:(lia) ho) as (inner & s & e1 & (s1 & s2 & s3 & s4) & p1 & r1 & m1).
    eexists. split; [exact e1|]. split; [repeat split; auto|]. cbn. splits; auto. rewrite s2, s3. exact h4.
Qed.
Lemma map_plays (Rm : M -> nat -> Prop) (m g : stage F) (e : event mconfig) pos :
  maps_inplace F M map_inplace m Rm ->
  plays F D prepare generate (mc_event _ _ (ev_data _ e)) pos g -> Rm (mc_state _ _ (ev_data _ e)) pos ->
  (ev_prepare _ e = false -> ev_prepare _ (mc_event _ _ (ev_data _ e)) = false) ->
  ev_end _ e - ev_start _ e <= ev_end _ (mc_event _ _ (ev_data _ e)) - ev_start _ (mc_event _ _ (ev_data _ e)) ->
  plays F mconfig (map_prepare D M prepare) (map_generate F D M generate map_inplace) e pos (fun k x => m k (g k x)).
Proof.
  intros hm. apply (map_plays_state Rm). clear e pos. intros R hk e pos c o rest hr hs hp hc1 hc2 ho. unfold map_generate.
  destruct (hk _ _ hr) as [_ hk2]. destruct (hk2 hp c o rest hc1 hc2 ho) as (i' & e1 & s1 & p1 & r1). rewrite e1. cbn [bind].
  destruct (hm _ pos c (mapi g pos o) rest hs hc1) as (s' & e2 & r2); [rewrite mapi_length; exact ho|]. rewrite e2. cbn [bind].
  exists i', s'. rewrite mapi_mapi. splits; auto; apply s1.
Qed.
Lemma zipi_repeat (m : nat -> F -> F -> F) (g : stage F) o : forall pos,
  zipi F m pos (mapi g pos (repeat zero (length o))) o = mapi (fun k y => m k (g k zero) y) pos o.
Proof. induction o; intros pos; cbn [length repeat mapi zipi]; [reflexivity|]. rewrite IHo. reflexivity. Qed.
Lemma map_isolated_plays extra (Rm : M -> nat -> Prop) (m : nat -> F -> F -> F) (g : stage F) (e : event mconfig) pos :
  maps_apart F M map_apart m Rm ->
  plays F D prepare generate (mc_event _ _ (ev_data _ e)) pos g -> Rm (mc_state _ _ (ev_data _ e)) pos ->
  (ev_prepare _ e = false -> ev_prepare _ (mc_event _ _ (ev_data _ e)) = false) ->
  ev_end _ e - ev_start _ e <= ev_end _ (mc_event _ _ (ev_data _ e)) - ev_start _ (mc_event _ _ (ev_data _ e)) ->
  plays F mconfig (map_prepare D M prepare) (map_isolated_generate F D M zero generate map_apart true extra) e pos (fun k y => m k (g k zero) y).
Proof.
  intros hm. apply (map_plays_state Rm). clear e pos. intros R hk e pos c o rest hr hs hp hc1 hc2 ho. unfold map_isolated_generate.
  rewrite app_length, <- Nat.add_assoc, repeat_app.
  destruct (hk _ _ hr) as [_ hk2]. destruct (hk2 hp c (repeat zero (length o)) (repeat zero (length rest + extra)) hc1 hc2) as (i' & e1 & s1 & p1 & r1); [rewrite repeat_length; exact ho|].
  rewrite e1. cbn [bind].
  destruct (hm _ pos c (mapi g pos (repeat zero (length o))) (repeat zero (length rest + extra)) o rest hs hc1) as (s' & e2 & r2); [rewrite mapi_length, repeat_length; exact ho|exact ho|].
  rewrite e2. cbn [bind]. exists i', s'. rewrite zipi_repeat. splits; auto; apply s1.
Qed.
End Map.

Lemma block_generate_empty T generate resolution start (s : T) : block_generate T generate resolution start start s = None.
Proof.
  unfold block_generate. rewrite Nat.leb_refl, Nat.sub_diag. cbn [need bind]. destruct (Nat.ltb_spec 0 resolution); [reflexivity|].
  replace resolution with 0 by lia. reflexivity.
Qed.
Lemma memory_ok_start b : EvProofs.memory_ok {| m_data := None; m_used := 0; m_free := b |} [] 0.
Proof. split; reflexivity. Qed.
Lemma registry_correct (ops : list memory_op) (free_set : bool) : memory_rules ops 0 ->
  exists m calls status registered,
    run_memory ops {| m_data := None; m_used := 0; m_free := free_set |} = Some (m, calls, status) /\
    memory_spec ops status [] 0 [] = Some (registered, calls).
Proof.
  intros h. destruct (EvProofs.memory_correct ops _ [] 0 [] (memory_ok_start free_set) h) as (m & calls & status & reg & e1 & e2 & _). eauto 8.
Qed.
Lemma registered_free_set ops free_set m calls status registered :
  memory_rules ops 0 -> run_memory ops {| m_data := None; m_used := 0; m_free := free_set |} = Some (m, calls, status) ->
  memory_spec ops status [] 0 [] = Some (registered, calls) -> registered <> [] -> m_free m = true.
Proof.
  intros h hr hs hne. destruct (EvProofs.memory_correct ops _ [] 0 [] (memory_ok_start free_set) h) as (m' & calls' & status' & reg & e1 & e2 & (p & e3)).
  rewrite hr in e1. injection e1 as <- <- <-. rewrite hs in e2. injection e2 as <-.
  unfold EvProofs.memory_ok in e3. destruct (m_data m); [apply e3|]. destruct e3; contradiction.
Qed.
Lemma second_free m m' calls : memory_free m = Some (calls, m') -> memory_free m' = Some ([], m').
Proof.
  unfold memory_free. destruct (m_data m) as [data|] eqn:e.
  - destruct (for_ 0 _ _ _); [|discriminate]. cbn [bind]. intros [= <- <-]. reflexivity.
  - intros [= <- <-]. rewrite e. reflexivity.
Qed.
Lemma split_at {A} (l : list A) n : n <= length l -> exists a b, l = a ++ b /\ length a = n.
Proof. intros h. exists (firstn n l), (skipn n l). rewrite firstn_skipn, firstn_length. split; [reflexivity|lia]. Qed.
Lemma skipn_app_exact {A} (a b : list A) n : length a = n -> skipn n (a ++ b) = b.
Proof. intros <-. rewrite skipn_app, skipn_all, Nat.sub_diag. reflexivity. Qed.
Lemma wave_in_bounds V add mul channels start end_ (out : list (frame V)) c :
  wave_valid V channels end_ c -> start <= end_ -> end_ - start <= length out ->
  exists out' c', wave_generate V add mul channels start end_ out c = Some (out', c') /\
    wave_valid V channels end_ c' /\ length out' = length out /\ skipn (end_ - start) out' = skipn (end_ - start) out.
Proof.
  intros hv hs hl.
  assert (hsil : exists silence : V, True).
  { destruct hv as (_ & w2 & w3 & _). destruct (wvf V c) as [|x l]; [cbn in w2; lia|]. exists x. exact I. }
  destruct hsil as [silence _]. destruct (split_at out (end_ - start) hl) as (o & rest & -> & ho).
  pose proof (wave_generate_exact V add mul silence channels start o rest end_ c hv ltac:(lia)) as e. replace (start + length o) with end_ in e by lia.
  eexists _, _. split; [exact e|]. split; [apply (xconfig_valid V add mul silence); exact hv|]. rewrite !app_length, mapi_length. split; [reflexivity|].
  rewrite !skipn_app_exact by (rewrite ?mapi_length; exact ho). reflexivity.
Qed.
Lemma isolated_input (F D M : Type) (zero : F) (generate : nat -> nat -> list F -> event D -> option (list F * event D * bool))
    (map_apart : nat -> nat -> list F -> list F -> M -> option (list F * M * bool)) (extra start end_ : nat) (out : list F) (e : event (map_config D M)) :
  map_isolated_generate F D M zero generate map_apart true extra start end_ out e =
  match generate start end_ (repeat zero (length out + extra)) (mc_event _ _ (ev_data _ e)) with
  | None => None
  | Some (_, inner, false) => Some (out, with_data e {| mc_event := inner; mc_state := mc_state _ _ (ev_data _ e) |} (ev_free _ e), false)
  | Some (input, inner, true) =>
    option_map (fun r => (fst (fst r), with_data e {| mc_event := inner; mc_state := snd (fst r) |} (ev_free _ e), snd r)) (map_apart start end_ input out (mc_state _ _ (ev_data _ e)))
  end.
Proof.
  unfold map_isolated_generate. destruct (generate start end_ _ _) as [[[temp inner] ok]|]; [|reflexivity]. cbn [bind]. destruct ok; [|reflexivity].
  destruct (map_apart start end_ temp out _) as [[[o s] ok]|]; reflexivity.
Qed.
Lemma isolated_independent (F D M : Type) (zero : F) (generate : nat -> nat -> list F -> event D -> option (list F * event D * bool))
    (map_apart : nat -> nat -> list F -> list F -> M -> option (list F * M * bool)) (extra start end_ : nat) (out1 out2 : list F) (e : event (map_config D M)) :
  (forall a b i o1 o2 s, option_map (fun r => (snd (fst r), snd r)) (map_apart a b i o1 s) = option_map (fun r => (snd (fst r), snd r)) (map_apart a b i o2 s)) ->
  length out1 = length out2 ->
  option_map (fun r => (snd (fst r), snd r)) (map_isolated_generate F D M zero generate map_apart true extra start end_ out1 e) =
  option_map (fun r => (snd (fst r), snd r)) (map_isolated_generate F D M zero generate map_apart true extra start end_ out2 e).
Proof.
  intros h hl. rewrite !isolated_input, hl. destruct (generate start end_ _ _) as [[[input inner] ok]|]; [|reflexivity]. destruct ok; [|reflexivity].
  specialize (h start end_ input out1 out2 (mc_state _ _ (ev_data _ e))).
  destruct (map_apart start end_ input out1 _) as [[[o1 s1] k1]|], (map_apart start end_ input out2 _) as [[[o2 s2] k2]|]; cbn in *; congruence.
Qed.
Lemma map_failure (F D M : Type) (generate : nat -> nat -> list F -> event D -> option (list F * event D * bool)) (map_inplace : nat -> nat -> list F -> M -> option (list F * M * bool))
    start end_ out (e : event (map_config D M)) out' inner :
  generate start end_ out (mc_event _ _ (ev_data _ e)) = Some (out', inner, false) ->
  exists e', map_generate F D M generate map_inplace start end_ out e = Some (out', e', false) /\
    mc_event _ _ (ev_data _ e') = inner /\ mc_state _ _ (ev_data _ e') = mc_state _ _ (ev_data _ e).
Proof. intros h. unfold map_generate. rewrite h. cbn [bind]. eexists. split; [reflexivity|]. split; reflexivity. Qed.
Lemma map_free_correct (D M : Type) (prepare : event D -> option (event D)) (e e' : event (map_config D M)) :
  (ev_free _ (mc_event _ _ (ev_data _ e)) = true -> map_free D M e = [AFree D (mc_event _ _ (ev_data _ e))]) /\
  (ev_free _ (mc_event _ _ (ev_data _ e)) = false -> map_free D M e = []) /\
  (map_prepare D M prepare e = Some e' -> ev_free _ e' = true).
Proof.
  unfold map_free. splits; try (intros ->; reflexivity). unfold map_prepare.
  destruct (if ev_prepare D _ then _ else _); [|discriminate]. cbn [bind]. intros [= <-]. reflexivity.
Qed.
Lemma wave_rendered V add mul silence channels t blocks h head (L : list (nat * event (wave_config V))) :
  represents _ h head L -> sorted _ (map snd L) ->
  Forall (fun e => ev_start _ e <= ev_end _ e /\ t <= ev_start _ e /\ ev_prepare _ e = false /\
    wave_valid V channels (ev_end _ e - ev_start _ e) (ev_data _ e) /\ wave_small V (ev_data _ e)) (map snd L) ->
  blocks_exact (frame V) t blocks ->
  exists r, run_blocks (frame V) _ (wave_event_prepare V) (wave_event_generate V add mul channels) t blocks head h = Some r /\ rr_ok _ _ r = true /\
    concat (rr_outs _ _ r) = render (frame V) _ (map (fun e => (e, wave_stage V add mul silence (ev_data _ e) 0)) (map snd L)) t (concat (map snd blocks)).
Proof.
  intros h1 h2 h3 h4.
  assert (em : map fst (map (fun e => (e, wave_stage V add mul silence (ev_data _ e) 0)) (map snd L)) = map snd L).
  { rewrite map_map. cbn [fst]. apply map_id. }
  apply (SeqRenderFinal.render_correct (frame V) (wave_config V) (wave_event_prepare V) (wave_event_generate V add mul channels) t blocks h head L _ h1).
  - symmetry. exact em.
  - exact (eq_ind _ (fun l => sorted _ l) h2 _ (eq_sym em)).
  - apply Forall_forall. intros eg he. apply in_map_iff in he as [e [<- he]]. rewrite Forall_forall in h3. apply (h3 _ he).
  - apply Forall_forall. intros eg he. apply in_map_iff in he as [e [<- he]]. rewrite Forall_forall in h3. destruct (h3 _ he) as (k1 & k2 & k3 & k4 & k5). cbn [fst snd]. intros _.
    replace (t - ev_start _ e) with 0 by lia. apply (wave_plays V add mul silence channels e (ev_data _ e) (ev_end _ e - ev_start _ e)); auto. rewrite k3. reflexivity.
  - exact h4.
Qed.
