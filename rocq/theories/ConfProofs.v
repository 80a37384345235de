From Verif Require Import Base ConvolveSpec SeqRenderSpec EvModel EvSpec EvProofs Ev2Proofs NoiseModel NoiseSpec NoiseProofs ConfModel ConfSpec.
Open Scope nat_scope.

Lemma fill_all {C} (d : C) : forall count i (done rest : list C), length done = i -> length rest = count ->
  for_from i count (fun j l => aset l j d) (done ++ rest) = Some (done ++ repeat d count).
Proof.
  induction count; intros i done rest h1 h2; cbn [for_from repeat].
  - destruct rest; [reflexivity|discriminate].
  - destruct rest as [|x rest]; [discriminate|]. 
    assert (E : aset (done ++ x :: rest) i d = Some ((done ++ [d]) ++ rest)).
    { subst i. clear. induction done; cbn; [reflexivity|]. rewrite IHdone. reflexivity. }
    rewrite E. cbn [bind]. rewrite IHcount; [|rewrite app_length; cbn; lia|cbn in h2; lia]. rewrite <- app_assoc. reflexivity.
Qed.
Lemma config_new_n_all {C} (d : C) count block : length block = count ->
  config_new_n (Some d) count (Some block) = Some (Some (repeat d count)).
Proof. intros h. unfold config_new_n. cbn [bind]. unfold for_. rewrite Nat.sub_0_r. pose proof (fill_all d count 0 [] block eq_refl h) as E. cbn [app] in E. rewrite E. reflexivity. Qed.
Lemma nth_error_repeat' {A} (x : A) n k : k < n -> nth_error (repeat x n) k = Some x.
Proof. revert k. induction n; intros k h; [lia|]. destruct k; cbn; [reflexivity|apply IHn; lia]. Qed.
Lemma nth_error_mapi {A} (f : nat -> A -> A) l : forall t i x, nth_error l i = Some x -> nth_error (mapi f t l) i = Some (f (t + i) x).
Proof.
  induction l; intros t i x h; destruct i; cbn in *; try discriminate.
  - injection h as ->. rewrite Nat.add_0_r. reflexivity.
  - rewrite (IHl (S t) i x h). f_equal. f_equal. lia.
Qed.

Section Wave.
Variables (V : Type) (zero one : V) (add mul : V -> V -> V).
Definition wave_conf (sine : list V) (rate : Z) : wave_config V :=
  {| wvf := sine; wvf_size := rate; channel_count := 2; channel_config :=
    [{| amod := None; amp := one; channel := 0; fmod := None; frq := 0; phs := 0; pmod := None; use := true |};
     {| amod := None; amp := one; channel := 1; fmod := None; frq := 0; phs := 0; pmod := None; use := false |}] |}.
Definition wave_prepared (sine : list V) (rate : Z) (a : list V) (f : Z) : wave_config V :=
  {| wvf := sine; wvf_size := rate; channel_count := 2; channel_config :=
    [{| amod := Some a; amp := one; channel := 0; fmod := None; frq := f; phs := 0; pmod := None; use := true |};
     {| amod := Some a; amp := one; channel := 1; fmod := None; frq := f; phs := 0; pmod := None; use := true |}] |}.
Lemma wave_defaults_eq sine rate : wave_defaults V zero one sine rate = Some (wave_conf sine rate).
Proof. reflexivity. Qed.
Lemma wave_prepare_eq sine rate a f : wave_prepare V (wave_with V a f (wave_conf sine rate)) = Some (wave_prepared sine rate a f).
Proof. reflexivity. Qed.
Lemma sum_fixed cc i n : fmod V cc = None -> frequency_sum V cc i n = (frq V cc * Z.of_nat n)%Z.
Proof. intros h. induction n; cbn [frequency_sum]; [lia|]. rewrite IHn, h. cbn [modulation]. lia. Qed.

Lemma wave_default_sounds sine rate channels count block a f n out k :
  (0 < rate)%Z -> rate = Z.of_nat (length sine) -> (rate + 65535 <= 2 ^ 32)%Z -> (0 <= f < 65536)%Z -> 2 <= channels -> length block = count -> k < count ->
  n <= length a -> length out = n ->
  exists configs c, config_new_n (wave_defaults V zero one sine rate) count (Some block) = Some (Some configs) /\ length configs = count /\ nth_error configs k = Some c /\
    exists c1 out' c2, wave_prepare V (wave_with V a f c) = Some c1 /\ wave_generate V add mul channels 0 n out c1 = Some (out', c2) /\ length out' = n /\
      forall t before, nth_error out t = Some before -> exists after, nth_error out' t = Some after /\ on_both V add (tone V zero one mul sine a f t) before after.
Proof.
  intros hr hs hr2 hf hc hb hk ha ho. rewrite wave_defaults_eq, (config_new_n_all _ _ _ hb). eexists _, _. split; [reflexivity|]. split; [apply repeat_length|].
  split; [apply nth_error_repeat'; exact hk|]. exists (wave_prepared sine rate a f).
  assert (hv : wave_valid V channels n (wave_prepared sine rate a f)).
  { unfold wave_valid. cbn [wave_prepared channel_count channel_config wvf wvf_size length firstn]. split; [lia|]. split; [exact hs|]. split; [unfold two32; lia|].
    repeat (constructor; [cbn [channel amod fmod pmod phs frq covers]; repeat split; try lia; try (exists a; split; [reflexivity|exact ha])|]). constructor. }
  assert (hsm : wave_small V (wave_prepared sine rate a f)).
  { unfold wave_small. cbn [wave_prepared channel_count channel_config wvf_size firstn].
    repeat (constructor; [intros i; cbn [frq fmod pmod modulation]; unfold two32; lia|]). constructor. }
  destruct (wave_generate_sum V add mul zero channels 0 out [] n _ hv hsm) as (c2 & E & _); [lia|].
  rewrite !app_nil_r in E. cbn [Nat.add] in E. rewrite ho in E.
  exists (mapi (wave_stage V add mul zero (wave_prepared sine rate a f) 0) 0 out), c2. split; [apply wave_prepare_eq|]. split; [exact E|].
  split; [rewrite mapi_length; exact ho|]. intros t before hb2. eexists. split; [apply nth_error_mapi; exact hb2|]. cbn [Nat.add].
  assert (Ev : forall ch, wave_value V mul zero (wave_prepared sine rate a f) {| amod := Some a; amp := one; channel := ch; fmod := None; frq := f; phs := 0; pmod := None; use := true |} 0 t = tone V zero one mul sine a f t).
  { intros ch. unfold wave_value, tone, wave_index. rewrite sum_fixed by reflexivity. cbn [phs pmod frq amp amod modulation wvf wvf_size wave_prepared]. rewrite Nat.sub_0_r. rewrite hs.
    do 3 f_equal. f_equal. lia. }
  intros ch. unfold wave_stage. cbn [wave_prepared channel_count channel_config firstn fold_left channel]. fold (wave_prepared sine rate a f). rewrite !Ev. unfold frame_add.
  destruct ch as [|[|ch]]; reflexivity.
Qed.

Lemma wave_default_mono sine rate a f n out c :
  wave_defaults V zero one sine rate = Some c -> 0 < n ->
  exists c1, wave_prepare V (wave_with V a f c) = Some c1 /\ wave_generate V add mul 1 0 n out c1 = None.
Proof.
  rewrite wave_defaults_eq. intros E hn. injection E as <-. exists (wave_prepared sine rate a f). split; [apply wave_prepare_eq|].
  unfold wave_generate. unfold for_ at 1. cbn [wave_prepared channel_count channel_config Nat.sub for_from].
  change (aget [_; _] 0) with (Some {| amod := Some a; amp := one; channel := 0; fmod := None; frq := f; phs := 0%Z; pmod := None; use := true |}). cbn [bind].
  destruct (for_ 0 n _ _) as [[o p]|]; [|reflexivity]. cbn [bind].
  cbn [aset]. cbn [bind]. unfold aget at 1. cbn [nth_error bind]. destruct n; [lia|]. unfold for_. cbn [Nat.sub for_from]. unfold wave_sample at 1. cbn [optional pmod bind need channel Nat.ltb Nat.leb]. reflexivity.
Qed.
(** without amplitudes *)
Lemma wave_default_silent sine rate c c1 channels n out :
  wave_defaults V zero one sine rate = Some c -> 0 < n -> wave_prepare V c = Some c1 -> wave_generate V add mul channels 0 n out c1 = None.
Proof.
  rewrite wave_defaults_eq. intros E hn. injection E as <-. intros E.
  assert (E2 : c1 = {| wvf := sine; wvf_size := rate; channel_count := 2; channel_config :=
    [{| amod := None; amp := one; channel := 0; fmod := None; frq := 0; phs := 0; pmod := None; use := true |};
     {| amod := None; amp := one; channel := 1; fmod := None; frq := 0; phs := 0; pmod := None; use := true |}] |}) by (injection E as <-; reflexivity).
  rewrite E2. destruct n; [lia|]. unfold wave_generate. unfold for_ at 1. cbn [channel_count channel_config Nat.sub for_from].
  unfold aget at 1. cbn [nth_error bind]. unfold for_ at 1. cbn [Nat.sub for_from]. unfold wave_sample at 1. cbn [optional pmod bind channel amod].
  destruct (need (0 <? channels)); [|reflexivity]. cbn [bind]. destruct (aget out (0 - 0)); reflexivity.
Qed.
End Wave.

Section Noise.
Variables (V R : Type) (zero one : V) (add mul : V -> V -> V) (limit : V -> V) (draw : R -> V * R) (ir_f : nat -> list Z -> option (list V)).
Variables (pack : Z -> Z -> Z -> Z -> bool -> list Z) (args_size : nat) (junk : nat -> list V) (junkb : nat -> list Z).
Hypothesis pack_length : forall a b c d e, length (pack a b c d e) = args_size.
Hypothesis junk_length : forall n, length (junk n) = n.
Hypothesis junkb_length : forall n, length (junkb n) = n.

Definition noise_channel (a : option (list V)) (i : nat) (w t : Z) (u : bool) : nchannel V :=
  {| n_amp := one; n_amod := a; n_channel := i; n_state := None; n_heap := {| FilterModel.cells := []; FilterModel.attempts := 0 |}; n_frq := 0; n_fmod := None; n_wdt := w; n_wmod := None;
     n_trnl := t; n_trnh := t; n_use := u |}.
Definition noise_conf (a : option (list V)) (random : R) (rate w : Z) : nconfig V R :=
  {| nc_reject := false; nc_random := random; nc_resolution := Z.to_nat (if (rate <? 10000)%Z then rate else rate / 1000); nc_temp := [None; None; None];
     nc_channels := [noise_channel a 0 w (rate * 8 / 100) true; noise_channel None 1 w (rate * 8 / 100) false] |}.
Lemma noise_defaults_eq random rate : (rate * 8 / 100 < 65536)%Z -> noise_defaults V R zero one random rate = Some (noise_conf None random rate (u16 (rate / 2))).
Proof. intros h. apply Z.ltb_lt in h. unfold noise_defaults, to_frq. rewrite h. reflexivity. Qed.
Lemma noise_defaults_none random rate : (65536 <= rate * 8 / 100)%Z -> noise_defaults V R zero one random rate = None.
Proof. intros h. apply Z.ltb_ge in h. unfold noise_defaults, to_frq. rewrite h. reflexivity. Qed.

Lemma mixed_both a w t signal ch i x : i < length a ->
  mixed V add mul limit [(noise_channel (Some a) 0 w t true, signal); (noise_channel (Some a) 1 w t true, signal)] ch i x =
  if ch <? 2 then add x (limit (mul (mul one (nth i a zero)) (signal i))) else x.
Proof.
  intros h. unfold mixed, noise_channel. cbn [fold_left n_channel n_amod n_amp]. rewrite (nth_error_nth' a zero h).
  destruct ch as [|[|ch]]; reflexivity.
Qed.
Lemma sounds_both a w t signal : forall calls outs i, i + list_sum (map fst calls) <= length a ->
  sounds V add mul limit [(noise_channel (Some a) 0 w t true, signal); (noise_channel (Some a) 1 w t true, signal)] i calls outs ->
  heard_on_both V add (fun i => limit (mul (mul one (nth i a zero)) (signal i))) i calls outs.
Proof.
  induction calls as [|[n out] calls IH]; intros outs i h hs; destruct outs as [|o outs]; cbn [sounds heard_on_both] in *; auto.
  destruct hs as (h1 & h2 & h3). cbn [map fst list_sum fold_right] in h. split; [exact h1|]. split.
  - intros ch j x hx. rewrite (h2 ch j x hx). destruct (j <? n) eqn:E; [|reflexivity]. apply Nat.ltb_lt in E. cbn [andb]. rewrite mixed_both by lia. reflexivity.
  - apply IH; [unfold list_sum; lia|exact h3].
Qed.

Lemma heard_on_both_ext (f g : nat -> V) : (forall t, f t = g t) -> forall calls outs t, heard_on_both V add f t calls outs -> heard_on_both V add g t calls outs.
Proof.
  intros h. induction calls as [|[n out] calls IH]; intros outs t; destruct outs; cbn [heard_on_both]; auto. intros (h1 & h2 & h3). split; [exact h1|]. split; [|apply IH; exact h3].
  intros ch j x hx. rewrite (h2 ch j x hx), h. reflexivity.
Qed.
Lemma noise_default_sounds rate random r count block k a ir duration calls :
  (25 <= rate < 131072)%Z -> length block = count -> k < count -> 0 < duration <= length a ->
  ir_f 0 (pack 0 (rate / 2) (rate * 8 / 100) (rate * 8 / 100) false) = Some ir -> 0 < length ir ->
  Forall (stereo_call V) calls -> list_sum (map fst calls) <= duration -> Forall (fun call => fst call <= Z.to_nat (4 * rate)) calls ->
  exists configs c, config_new_n (noise_defaults V R zero one random rate) count (Some block) = Some (Some configs) /\ length configs = count /\ nth_error configs k = Some c /\
    exists c1 outs c2, prepare V R zero add mul draw ir_f pack junk junkb rate duration r (noise_with V R a c) = Some (Some c1) /\
      noise_run V R zero add mul limit draw ir_f pack junk junkb 0 calls c1 = Some (outs, c2) /\
      heard_on_both V add (fun t => limit (mul (mul one (nth t a zero)) (noise_signal V R zero add mul draw ir (response_length rate (rate * 8 / 100)) r t))) 0 calls outs.
Proof.
  intros hr hb hk hd hir hl hcalls hsum hcalls2.
  assert (ht : (2 <= rate * 8 / 100 < 65536)%Z). { split; [apply Z.div_le_lower_bound; lia|apply Z.div_lt_upper_bound; lia]. }
  assert (hw : u16 (rate / 2) = (rate / 2)%Z). { unfold u16. apply Z.mod_small. split; [apply Z.div_pos; lia|apply Z.div_lt_upper_bound; lia]. }
  rewrite noise_defaults_eq, (config_new_n_all _ _ _ hb) by lia. eexists _, _. split; [reflexivity|]. split; [apply repeat_length|]. split; [apply nth_error_repeat'; exact hk|].
  rewrite hw. change (noise_with V R a (noise_conf None random rate (rate / 2))) with (noise_conf (Some a) random rate (rate / 2)).
  set (trn := (rate * 8 / 100)%Z) in *.
  assert (hch : event_channels V R rate (noise_conf (Some a) random rate (rate / 2)) =
    [(noise_channel (Some a) 0 (rate / 2) trn true, Some (response_length rate trn)); (noise_channel (Some a) 1 (rate / 2) trn true, None)]).
  { unfold event_channels. cbn [noise_conf nc_channels map]. unfold channel_length, own_filter, inherit. cbn [noise_channel n_use andb n_trnl n_trnh n_amp n_amod n_channel n_state n_heap n_frq n_fmod n_wdt n_wmod].
    fold trn. rewrite Z.min_id. reflexivity. }
  assert (hresp : forall i t, response V ir_f pack false (noise_channel (Some a) i (rate / 2) trn true) t = ir).
  { intros i t. unfold response. cbn [noise_channel n_fmod n_frq n_wmod n_wdt n_trnl n_trnh at_time]. change (u16 0) with 0%Z. rewrite Z.add_0_l.
    unfold u32. rewrite Z.mod_small; [rewrite hir; reflexivity|]. split; [apply Z.div_pos; lia|]. unfold two32. apply Z.div_lt_upper_bound; lia. }
  assert (hp : playable V R ir_f pack rate duration (noise_conf (Some a) random rate (rate / 2))).
  { unfold playable. split; [lia|]. split; [lia|]. split; [lia|]. split; [eexists _, _; split; reflexivity|]. rewrite hch.
    repeat apply Forall_cons; try apply Forall_nil; unfold playable_channel; cbn [fst snd nc_reject noise_conf]; (split; [reflexivity|]); (split; [exists a; split; [reflexivity|lia]|]); intros hn.
    - cbn [noise_channel n_trnl n_trnh n_fmod n_wmod]. fold trn. split; [lia|]. split; [lia|]. split; [exact I|]. split; [exact I|]. exists (length ir). split; [exact hl|]. intros t _.
      exact (f_equal (@length V) (hresp 0 t)).
    - congruence. }
  destruct (event_sounds_steady V R zero add mul limit draw ir_f pack args_size pack_length junk junkb junk_length junkb_length rate duration r (noise_conf (Some a) random rate (rate / 2)) calls hp) as (c1 & outs & c2 & E1 & E2 & E3).
  - reflexivity.
  - rewrite hch. eapply Forall_impl; [|exact hcalls]. intros call (h0 & l & rr & rest & h1 & h2 & h3). split; [exact h0|]. rewrite h1.
    repeat apply Forall_cons; try apply Forall_nil; [exists l|exists rr]; split; try reflexivity; assumption.
  - exact hsum.
  - exact hcalls2.
  - exists c1, outs, c2. split; [exact E1|]. split; [exact E2|]. rewrite hch in E3. unfold event_signals in E3. cbn [lead_ins] in E3.
    destruct (numbers V R draw (response_length rate trn) r) as [lead r1] eqn:En. cbn [signals] in E3.
    assert (hll : length lead = response_length rate trn).
    { clear - En. revert r r1 lead En. induction (response_length rate trn); intros r r1 lead En; cbn [numbers] in En; [injection En as <- <-; reflexivity|].
      destruct (draw r) as [x r']. destruct (numbers V R draw n r') as [l r''] eqn:E. injection En as <- <-. cbn. f_equal. eapply IHn; exact E. }
    apply sounds_both in E3; [|lia]. unfold noise_signal. rewrite En. cbn [fst snd].
    eapply heard_on_both_ext; [|exact E3]. intros t. cbn beta. unfold filtered. cbn [noise_conf nc_reject]. rewrite (hresp 0 0), hll. reflexivity.
Qed.
End Noise.
Lemma noise_default_narrow (V R : Type) (zero one : V) (random : R) rate : (131072 <= rate < 819200)%Z ->
  exists c, noise_defaults V R zero one random rate = Some c /\ length (nc_channels V R c) = 2 /\ Forall (fun cc => n_fmod V cc = None /\ n_wmod V cc = None /\ (n_frq V cc + n_wdt V cc < rate / 2)%Z) (nc_channels V R c).
Proof.
  intros h. rewrite noise_defaults_eq by (apply Z.div_lt_upper_bound; lia). eexists. split; [reflexivity|]. split; [reflexivity|].
  assert (hn : (u16 (rate / 2) < rate / 2)%Z).
  { unfold u16. assert (65536 <= rate / 2)%Z by (apply Z.div_le_lower_bound; lia). pose proof (Z.mod_pos_bound (rate / 2) 65536). lia. }
  repeat constructor; cbn [noise_channel n_frq n_wdt]; lia.
Qed.
