(** Concrete noise events: integers as samples, a linear congruential source, impulse responses of three samples. *)
From Verif Require Import Base FilterModel FilterDemo MiscModel RandModel NoiseModel NoiseSpec NoiseProofs.
Open Scope nat_scope.

Definition demo_draw (r : Z) : Z * Z := ((r mod 7 - 3)%Z, ((5 * r + 1) mod 64)%Z).
Definition demo_limit (x : Z) : Z := Z.max (-9) (Z.min 9 x).
Definition demo_nir (f : nat) (args : list Z) : option (list Z) := match args with a :: b :: _ => Some [1; a; b]%Z | _ => None end.
Definition demo_pack (a b c d : Z) (e : bool) : list Z := [a; b; c; d; if e then 1 else 0]%Z.
Definition demo_junk (n : nat) : list Z := repeat 0%Z n.

Definition demo_prepare := prepare Z Z 0%Z Z.add Z.mul demo_draw demo_nir demo_pack demo_junk demo_junk.
Definition demo_noise := noise_run Z Z 0%Z Z.add Z.mul demo_limit demo_draw demo_nir demo_pack demo_junk demo_junk.
Definition demo_channel (ch : nat) (amp frq wdt : Z) (fmod : option (list Z)) (trn : Z) (use : bool) (amod : option (list Z)) : nchannel Z :=
  {| n_amp := amp; n_amod := amod; n_channel := ch; n_state := None; n_heap := empty_heap; n_frq := frq; n_fmod := fmod; n_wdt := wdt; n_wmod := None;
     n_trnl := trn; n_trnh := trn; n_use := use |}.
Definition ones : list Z := repeat 1%Z 8.
(** a steady event on three channels: the first, one with a filter of its own, one that repeats the first *)
Definition demo_steady : nconfig Z Z :=
  {| nc_reject := false; nc_random := 0%Z; nc_resolution := 2; nc_temp := [];
     nc_channels := [demo_channel 0 1 2 1 None 2 true (Some ones); demo_channel 1 2 0 3 None 0 true None; demo_channel 1 7 0 0 None 0 false None] |}.
(** an event with changing frequency *)
Definition demo_mod : nconfig Z Z :=
  {| nc_reject := false; nc_random := 0%Z; nc_resolution := 2; nc_temp := [];
     nc_channels := [demo_channel 0 1 0 1 (Some [0; 1; 2; 3; 4; 5; 6; 7]%Z) 2 true (Some ones)] |}.
Definition zeros2 (n : nat) : nat * list (list Z) := (n, [repeat 0%Z n; repeat 0%Z n]).

Lemma demo_pack_length a b c d e : length (demo_pack a b c d e) = 5.
Proof. reflexivity. Qed.
Lemma demo_junk_length n : length (demo_junk n) = n.
Proof. apply repeat_length. Qed.
Lemma demo_response reject cc t : length (response Z demo_nir demo_pack reject cc t) = 3.
Proof. reflexivity. Qed.

Lemma demo_steady_playable rate : (0 < rate < 1000)%Z -> playable Z Z demo_nir demo_pack rate 8 demo_steady.
Proof.
  intros h. unfold playable. split; [lia|]. split; [lia|]. split; [lia|]. split; [eexists _, _; split; reflexivity|].
  cbv [event_channels nc_channels demo_steady map]. repeat apply Forall_cons; try apply Forall_nil; unfold playable_channel; cbn [fst snd]; (split; [reflexivity|]); (split; [exists ones; split; [reflexivity|vm_compute; lia]|]); intros hn.
  - split; [vm_compute; discriminate|]. split; [vm_compute; discriminate|]. split; [exact I|]. split; [exact I|]. exists 3. split; [lia|]. intros. apply demo_response.
  - split; [vm_compute; discriminate|]. split; [vm_compute; discriminate|]. split; [exact I|]. split; [exact I|]. exists 3. split; [lia|]. intros. apply demo_response.
  - exfalso. apply hn. reflexivity.
Qed.
Lemma demo_mod_playable : playable Z Z demo_nir demo_pack 4 8 demo_mod.
Proof.
  unfold playable. split; [lia|]. split; [lia|]. split; [lia|]. split; [eexists _, _; split; reflexivity|].
  cbv [event_channels nc_channels demo_mod map]. repeat apply Forall_cons; try apply Forall_nil; unfold playable_channel; cbn [fst snd]; (split; [reflexivity|]); (split; [exists ones; split; [reflexivity|vm_compute; lia]|]); intros hn.
  split; [vm_compute; discriminate|]. split; [vm_compute; discriminate|]. split; [vm_compute; lia|]. split; [exact I|]. exists 3. split; [lia|]. intros. apply demo_response.
Qed.
Definition demo_play (c : nconfig Z Z) (sizes : list nat) : option (list (list (list Z))) :=
  c' <- demo_prepare 4%Z 8 5%Z c ;;
  match c' with
  | None => None
  | Some c' => '(outs, _) <- demo_noise 0 (map zeros2 sizes) c' ;; Some outs
  end.
