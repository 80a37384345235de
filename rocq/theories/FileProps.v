(** Properties C45, C46 and C47 *)
From Verif Require Import Base SeqModel SeqSpec SeqLifeSpec SeqRenderSpec SeqRenderProofs SeqDemo FileModel FileSpec FileUseSpec FileProofs File2Proofs FileUseProofs RenderModel RenderProofs.

Definition demo_junk (n : nat) : list Z := repeat 170%Z n.
Lemma demo_junk_length n : length (demo_junk n) = n. Proof. apply repeat_length. Qed.
Definition demo_narrow (x : Z) : Z := u32 x.
Lemma demo_narrow_range x : (0 <= demo_narrow x < two32)%Z. Proof. apply u32_range. Qed.

(** C45: for every channel count, rate, and sequence of blocks of frames, opening for writing, writing all blocks and closing gives
    exactly the WAV file with these frames: header, sizes and data. [narrow] is any conversion to 32 bit. *)
Theorem c45_wav_file :
  forall (D : Type) (narrow : D -> Z) (errno : Z) (header : list Z) (junk : nat -> list Z) (cc : nat) (rate : Z) (blocks : list (list (list D) * nat)) (frames : list (list (list D))),
  length header = 40 -> (forall k, length (junk k) = k) -> 0 < cc ->
  Forall2 (fun b fr => 0 < snd b /\ frames_of cc (fst b) (snd b) fr) blocks frames ->
  (36 + Z.of_nat (length (data_bytes narrow (concat frames))) < two32)%Z ->
  exists f0 f, open_write true errno None header cc rate = Some (status_success, Some f0) /\ write_all D narrow junk f0 blocks = Some (status_success, f) /\
    close_write None None f = wav_file cc rate (data_bytes narrow (concat frames)).
Proof. exact written_file. Qed.
Print Assumptions c45_wav_file.

Example c45_instance :
  (exists f0 f, open_write true 0 None (demo_junk 40) 2 48000 = Some (status_success, Some f0) /\
    write_all Z demo_narrow demo_junk f0 [([[1; 2]; [3; 4]]%Z, 2); ([[5; 9]; [6]]%Z, 1)] = Some (status_success, f) /\
    close_write None None f = wav_file 2 48000 (data_bytes demo_narrow [[1; 3]; [2; 4]; [5; 6]]%Z)) /\
  wav_file 1 8000 [1; 2; 3; 4]%Z =
    [82;73;70;70; 40;0;0;0; 87;65;86;69; 102;109;116;32; 16;0;0;0; 3;0; 1;0; 64;31;0;0; 0;125;0;0; 4;0; 32;0; 100;97;116;97; 4;0;0;0; 1;2;3;4]%Z.
Proof.
  split; [|vm_compute; reflexivity].
  apply (c45_wav_file Z demo_narrow 0 (demo_junk 40) demo_junk 2 48000 [([[1; 2]; [3; 4]]%Z, 2); ([[5; 9]; [6]]%Z, 1)] [[[1; 3]; [2; 4]]; [[5; 6]]]%Z).
  - reflexivity.
  - apply demo_junk_length.
  - lia.
  - repeat constructor.
    + intros [|[|i]] hi; cbn in hi; try lia; eexists; (split; [reflexivity|]); (split; [reflexivity|]); intros [|[|j]] hj; try lia; do 2 eexists; repeat split; reflexivity.
    + intros [|i] hi; cbn in hi; try lia; eexists; (split; [reflexivity|]); (split; [reflexivity|]); intros [|[|j]] hj; try lia; do 2 eexists; repeat split; reflexivity.
  - reflexivity.
Qed.

(** C45: if opening or writing the header fails then the error is reported and there is no file to write to. *)
Theorem c45_open_failure :
  forall (opened : bool) (errno : Z) (fault : option nat) (header : list Z) (cc : nat) (rate : Z), length header = 40 ->
  opened = false \/ fault <> None ->
  open_write opened errno fault header cc rate = Some (if opened then id_file_write else errno, None).
Proof. exact open_write_failure. Qed.
Print Assumptions c45_open_failure.

(** C45: a write that the system does not complete is reported and not counted in the header sizes. Also every empty write is reported as
    an error: the second case of the condition. *)
Theorem c45_write_failure :
  forall (D : Type) (narrow : D -> Z) (fault : option nat) (junk : nat -> list Z) (f : file) (samples : list (list D)) (n : nat) (frames : list (list D)),
  (forall k, length (junk k) = k) -> frames_of (f_channels f) samples n frames -> (4 * Z.of_nat (f_channels f) * Z.of_nat n < two32)%Z ->
  fault <> None \/ f_channels f = 0 \/ n = 0 ->
  exists f', file_write D narrow true fault junk f samples n = Some (id_file_write, f') /\ f_data_size f' = f_data_size f /\ f_channels f' = f_channels f.
Proof. exact write_failure. Qed.
Print Assumptions c45_write_failure.
Example c45_failure_instance :
  open_write true 0 (Some 12) (demo_junk 40) 2 48000 = Some (id_file_write, None) /\
  option_map fst (file_write Z demo_narrow true (Some 5) demo_junk {| f_stream := {| content := repeat 0%Z 44; position := 44; at_end := false |}; f_data_size := 0; f_channels := 1 |}
    [[7; 8]]%Z 2) = Some id_file_write /\
  (* an empty write *)
  option_map fst (file_write Z demo_narrow true None demo_junk {| f_stream := {| content := repeat 0%Z 44; position := 44; at_end := false |}; f_data_size := 0; f_channels := 1 |}
    [[7; 8]]%Z 0) = Some id_file_write.
Proof. splits; reflexivity. Qed.

(** C46: writing any sequence of blocks, opening the result for reading with the channel count set by the caller, and reading with any sequence of sample
    counts delivers the written frames in order, each sample as [widen (narrow x)], and signals end of file exactly when frames are
    requested and nothing is left. Partial: the status is the value of the variable in sp_file_read, which the function does not return,
    see c46_status_refuted; and the channel count has to be set by the caller, see c46_channel_count_refuted. *)
Theorem c46_round_trip_partial :
  forall (D : Type) (narrow : D -> Z) (widen : Z -> D), (forall x, (0 <= narrow x < two32)%Z) ->
  forall (errno : Z) (header : list Z) (junk : nat -> list Z) (cc : nat) (rate : Z) (blocks : list (list (list D) * nat)) (frames : list (list (list D)))
    (before : file) (reads : list (nat * list (list D))),
  length header = 40 -> (forall k, length (junk k) = k) -> 0 < cc ->
  Forall2 (fun b fr => 0 < snd b /\ frames_of cc (fst b) (snd b) fr) blocks frames ->
  (36 + Z.of_nat (length (data_bytes narrow (concat frames))) < two32)%Z ->
  f_channels before = cc -> Forall (read_ok D cc) reads ->
  exists f0 f1 f2 results, open_write true errno None header cc rate = Some (status_success, Some f0) /\ write_all D narrow junk f0 blocks = Some (status_success, f1) /\
    open_read (Some (close_write None None f1)) before = Some (status_success, f2) /\
    read_all D widen f2 reads = Some results /\ reads_expected D (fun x => widen (narrow x)) cc (concat frames) reads results.
Proof. exact round_trip. Qed.
Print Assumptions c46_round_trip_partial.

(** C46: the same for any float WAV file with other chunks between the format and the data. *)
Theorem c46_other_chunks_partial :
  forall (D : Type) (narrow : D -> Z) (widen : Z -> D), (forall x, (0 <= narrow x < two32)%Z) ->
  forall (before : file) (chunk_size : Z) (cc : nat) (rate : Z) (chunks : list (list Z * list Z)) (frames : list (list D)) (reads : list (nat * list (list D))),
  f_channels before = cc -> 0 < cc -> Forall (fun fr => length fr = cc) frames -> Forall chunk_ok chunks ->
  (Z.of_nat (length (data_bytes narrow frames)) < two32)%Z -> Forall (read_ok D cc) reads ->
  exists f results, open_read (Some (wav_format chunk_size cc rate ++ wav_chunks chunks ++ chunk data_id (data_bytes narrow frames))) before = Some (status_success, f) /\
    read_all D widen f reads = Some results /\ reads_expected D (fun x => widen (narrow x)) cc frames reads results.
Proof. exact read_file. Qed.
Print Assumptions c46_other_chunks_partial.

Definition demo_before (cc : nat) : file := {| f_stream := {| content := []; position := 0; at_end := false |}; f_data_size := 0; f_channels := cc |}.
Definition demo_reads : list (nat * list (list Z)) := [(2, [[0; 0; 0]; [0; 0; 0]]%Z); (2, [[0; 0; 0]; [0; 0; 0]]%Z); (1, [[0]; [0]]%Z)].
Example c46_instance :
  Forall (read_ok Z 2) demo_reads /\
  chunk_ok ([76; 73; 83; 84], [1; 2; 3])%Z /\
  (exists f, open_read (Some (wav_format 0 2 8000 ++ wav_chunks [([76; 73; 83; 84], [1; 2; 3])]%Z ++ chunk data_id (data_bytes demo_narrow [[1; 3]; [2; 4]; [5; 6]]%Z))) (demo_before 2) =
      Some (status_success, f) /\
    read_all Z (fun x => x) f demo_reads = Some [(status_success, [[1; 2; 0]; [3; 4; 0]]); (status_success, [[5; 0; 0]; [6; 0; 0]]); (id_file_eof, [[0]; [0]])]%Z).
Proof.
  splits.
  - repeat (apply Forall_cons || apply Forall_nil); (split; [cbn; lia|split; [|reflexivity]]); intros [|[|j]] c hj e; try lia; injection e as <-; cbn; lia.
  - split; [reflexivity|]. split; [repeat (apply Forall_cons || apply Forall_nil); lia|]. split; [discriminate|reflexivity].
  - eexists. split; [vm_compute; reflexivity|]. vm_compute. reflexivity.
Qed.

(** C46: opening any file for reading ends. *)
Theorem c46_open_read_terminates : forall (bytes : list Z) (before : file), open_read (Some bytes) before <> None.
Proof. exact open_read_total. Qed.
Print Assumptions c46_open_read_terminates.
(** C46 refuted: the channel count after opening is the one from before, whatever the file says. *)
Theorem c46_channel_count_refuted : forall (before : file) (cc : nat) (rate : Z) (data : list Z),
  (36 + Z.of_nat (length data) < two32)%Z -> f_channels before <> cc ->
  exists f, open_read (Some (wav_file cc rate data)) before = Some (status_success, f) /\ f_channels f <> cc.
Proof. exact channel_count_wrong. Qed.
Print Assumptions c46_channel_count_refuted.
Theorem c46_channel_count_unchanged : forall (bytes : option (list Z)) (before f : file) (status : Z), open_read bytes before = Some (status, f) -> f_channels f = f_channels before.
Proof. exact (fun bytes before f status => open_read_channels bytes before status f). Qed.
Print Assumptions c46_channel_count_unchanged.
(** C46 refuted: sp_file_read never returns a status, so neither end of file nor errors are signalled. *)
Theorem c46_status_refuted : forall (D : Type) (widen : Z -> D) (malloc : bool) (f : file) (n : nat) (samples : list (list D)) status out s,
  file_read D widen malloc f n samples = Some (status, out, s) -> status = None.
Proof. exact status_undefined. Qed.
Print Assumptions c46_status_refuted.
Example c46_status_instance : exists out s, file_read Z (fun x => x) true (demo_before 1) 1 [[0]]%Z = Some (None, out, s).
Proof. eexists. eexists. reflexivity. Qed.
(** C46 refuted: a missing file is not reported, a null pointer is used instead. *)
Theorem c46_missing_file_refuted : forall before : file, open_read None before = None.
Proof. reflexivity. Qed.
Print Assumptions c46_missing_file_refuted.
(** C46 refuted: the size of the data chunk is ignored. For every file and every whole number of frames after its data chunk, for example
    another chunk, reading delivers what follows as samples and signals the end only after it. *)
Theorem c46_trailing_chunk_refuted :
  forall (D : Type) (narrow : D -> Z) (widen : Z -> D), (forall x, (0 <= narrow x < two32)%Z) ->
  forall (before : file) (cc : nat) (rate : Z) (frames extra : list (list D)) (reads : list (nat * list (list D))),
  f_channels before = cc -> 0 < cc -> Forall (fun fr => length fr = cc) frames -> Forall (fun fr => length fr = cc) extra ->
  (36 + Z.of_nat (length (data_bytes narrow frames)) < two32)%Z -> Forall (read_ok D cc) reads ->
  exists f results, open_read (Some (wav_file cc rate (data_bytes narrow frames) ++ data_bytes narrow extra)) before = Some (status_success, f) /\
    read_all D widen f reads = Some results /\ reads_expected D (fun x => widen (narrow x)) cc (frames ++ extra) reads results.
Proof. exact read_trailing. Qed.
Print Assumptions c46_trailing_chunk_refuted.
Example c46_trailing_chunk_instance : exists (f : file) out s,
  open_read (Some (wav_file 1 8000 (data_bytes demo_narrow [[1]]%Z) ++ chunk [76; 73; 83; 84]%Z [9; 0; 0; 0]%Z)) (demo_before 1) = Some (status_success, f) /\
  file_read_status Z (fun x => x) true f 4 [[0; 0; 0; 0]]%Z = Some (status_success, out, s) /\ out = [[1; 1414744396; 4; 9]]%Z.
Proof. eexists. eexists. eexists. split; [vm_compute; reflexivity|]. split; vm_compute; reflexivity. Qed.
Example c46_channel_count_instance : exists f, open_read (Some (wav_file 2 8000 (data_bytes demo_narrow [[1; 3]; [2; 4]]%Z))) (demo_before 1) = Some (status_success, f) /\ f_channels f <> 2.
Proof. apply channel_count_wrong; [reflexivity|discriminate]. Qed.

(** C47: sp_render_range_block gives the sum of the event over [start, end): what the event plays there and silence elsewhere. No element stays allocated. *)
Theorem c47_render_block :
  forall (V D : Type) (zero : V) prepare generate (e : event D) (g : stage (nat -> V)) (start end_ : nat) (h : heap D),
  start < end_ -> (Z.of_nat end_ < two32)%Z -> ev_start D e <= ev_end D e ->
  (start < ev_end D e -> plays (nat -> V) D prepare generate e (start - ev_start D e) g) -> nodes D h (fresh D h) = None ->
  exists h', render_range_block V D zero prepare generate e start end_ h = Some (true, render (nat -> V) D [(e, g)] start (silence V zero (end_ - start)), h') /\
    forall q, nodes D h' q = nodes D h q.
Proof. exact (fun V D zero prepare generate => render_block_correct V D zero (fun _ => 0%Z) prepare generate demo_junk demo_junk_length). Qed.
Print Assumptions c47_render_block.

(** C47: sp_render_range_file writes the WAV file of the first [end - start] frames, for every block size, also when it does not divide the
    duration. So the file has the range [start, end) only for [start = 0]. *)
Theorem c47_render_file :
  forall (V D : Type) (zero : V) (narrow : V -> Z) prepare generate (junk : nat -> list Z), (forall n, length (junk n) = n) ->
  forall (e : event D) (g : stage (nat -> V)) (start end_ cc : nat) (rate : Z) (bs : nat) (h : heap D),
  start <= end_ -> (Z.of_nat end_ < two32)%Z -> ev_start D e <= ev_end D e ->
  plays (nat -> V) D prepare generate e 0 g -> nodes D h (fresh D h) = None ->
  0 < cc -> 0 < bs -> (36 + 4 * Z.of_nat cc * Z.of_nat (end_ - start) < two32)%Z ->
  exists h', render_range_file V D zero narrow prepare generate junk e start end_ cc rate bs h =
      Some (true, wav_file cc rate (data_bytes narrow (flat cc (render (nat -> V) D [(e, g)] 0 (silence V zero (end_ - start))))), h') /\
    forall q, nodes D h' q = nodes D h q.
Proof. exact render_file_correct. Qed.
Print Assumptions c47_render_file.

(** C47: for start 0, the file has exactly the frames of sp_render_range_block. Missing: other starts, where it is false, see c47_start_refuted. *)
Theorem c47_file_equals_block_partial :
  forall (V D : Type) (zero : V) (narrow : V -> Z) prepare generate (junk : nat -> list Z), (forall n, length (junk n) = n) ->
  forall (e : event D) (g : stage (nat -> V)) (end_ cc : nat) (rate : Z) (bs : nat) (h : heap D),
  0 < end_ -> (Z.of_nat end_ < two32)%Z -> ev_start D e <= ev_end D e ->
  plays (nat -> V) D prepare generate e 0 g -> nodes D h (fresh D h) = None ->
  0 < cc -> 0 < bs -> (36 + 4 * Z.of_nat cc * Z.of_nat end_ < two32)%Z ->
  exists frames h1 h2, render_range_block V D zero prepare generate e 0 end_ h = Some (true, frames, h1) /\
    length frames = end_ /\
    render_range_file V D zero narrow prepare generate junk e 0 end_ cc rate bs h = Some (true, wav_file cc rate (data_bytes narrow (flat cc frames)), h2).
Proof.
  intros V D zero narrow prepare generate junk hj e g end_ cc rate bs h h1 h2 h3 h4 h5 h6 h7 h8.
  destruct (render_block_correct V D zero (fun _ => 0%Z) prepare generate demo_junk demo_junk_length e g 0 end_ h h1 h2 h3 (fun _ => h4) h5) as (ha & ea & _).
  destruct (render_file_correct V D zero narrow prepare generate junk hj e g 0 end_ cc rate bs h (Nat.le_0_l _) h2 h3 h4 h5 h6 h7) as (hb & eb & _); [rewrite Nat.sub_0_r; exact h8|].
  rewrite Nat.sub_0_r in *. do 3 eexists. split; [exact ea|]. split; [|exact eb]. unfold render. rewrite mapi_length. apply repeat_length.
Qed.
Print Assumptions c47_file_equals_block_partial.

Definition demo_frame_stage (d : Z) : stage (nat -> Z) := fun k fr c => (fr c + (d + Z.of_nat k + 100 * Z.of_nat c))%Z.
Definition demo_frame_generate (a c : nat) (out : list (nat -> Z)) (e : event Z) : option (list (nat -> Z) * event Z * bool) :=
  Some (mapi (demo_frame_stage (ev_data Z e)) a (firstn (c - a) out) ++ skipn (c - a) out, e, true).
Lemma demo_frame_plays e pos : plays (nat -> Z) Z demo_prepare demo_frame_generate e pos (demo_frame_stage (ev_data Z e)).
Proof.
  exists (fun e' _ => ev_data Z e' = ev_data Z e). split; [reflexivity|]. intros e' p Hd. split.
  - intros _. exists e'. splits; auto. unfold same. auto.
  - intros Hp c o rest Hc _ Ho. exists e'. unfold demo_frame_generate. rewrite (firstn_exact o rest) by auto. rewrite (skipn_exact o rest) by auto.
    rewrite Hd. splits; auto. unfold same. auto.
Qed.
Example c47_instance :
  plays (nat -> Z) Z demo_prepare demo_frame_generate (demo_event 0 1 4 10) 0 (demo_frame_stage 10) /\
  nodes Z (empty_heap Z) (fresh Z (empty_heap Z)) = None /\
  option_map (fun r => flat 2 (snd (fst r))) (render_range_block Z Z 0%Z demo_prepare demo_frame_generate (demo_event 0 1 4 10) 0 5 (empty_heap Z)) =
    Some [[0; 0]; [10; 110]; [11; 111]; [12; 112]; [0; 0]]%Z /\
  option_map (fun r => snd (fst r)) (render_range_file Z Z 0%Z demo_narrow demo_prepare demo_frame_generate demo_junk (demo_event 0 1 4 10) 0 5 2 8000 2 (empty_heap Z)) =
    Some (wav_file 2 8000 (data_bytes demo_narrow [[0; 0]; [10; 110]; [11; 111]; [12; 112]; [0; 0]]%Z)).
Proof. splits; [apply (demo_frame_plays (demo_event 0 1 4 10))|reflexivity|vm_compute; reflexivity|vm_compute; reflexivity]. Qed.

(** C47 refuted for other starts: whatever the start of the range, the file has the frames that sp_render_range_block gives for the range of the same length that starts at 0. *)
Theorem c47_start_refuted :
  forall (V D : Type) (zero : V) (narrow : V -> Z) prepare generate (junk : nat -> list Z), (forall n, length (junk n) = n) ->
  forall (e : event D) (g : stage (nat -> V)) (start end_ cc : nat) (rate : Z) (bs : nat) (h : heap D),
  start < end_ -> (Z.of_nat end_ < two32)%Z -> ev_start D e <= ev_end D e ->
  plays (nat -> V) D prepare generate e 0 g -> nodes D h (fresh D h) = None ->
  0 < cc -> 0 < bs -> (36 + 4 * Z.of_nat cc * Z.of_nat (end_ - start) < two32)%Z ->
  exists frames h1 h2, render_range_block V D zero prepare generate e 0 (end_ - start) h = Some (true, frames, h1) /\
    render_range_file V D zero narrow prepare generate junk e start end_ cc rate bs h = Some (true, wav_file cc rate (data_bytes narrow (flat cc frames)), h2).
Proof.
  intros V D zero narrow prepare generate junk hj e g start end_ cc rate bs h h1 h2 h3 h4 h5 h6 h7 h8.
  destruct (render_block_correct V D zero (fun _ => 0%Z) prepare generate demo_junk demo_junk_length e g 0 (end_ - start) h ltac:(lia) ltac:(lia) h3 (fun _ => h4) h5) as (ha & ea & _).
  destruct (render_file_correct V D zero narrow prepare generate junk hj e g start end_ cc rate bs h (Nat.lt_le_incl _ _ h1) h2 h3 h4 h5 h6 h7 h8) as (hb & eb & _).
  rewrite Nat.sub_0_r in ea. do 3 eexists. split; [exact ea|exact eb].
Qed.
Print Assumptions c47_start_refuted.
(** the range [2, 5) of an event that plays at [1, 4): the file differs from the block *)
Example c47_start_instance :
  exists (e : event Z) (g : stage (nat -> Z)) frames h1 bytes h2,
  plays (nat -> Z) Z demo_prepare demo_frame_generate e 0 g /\
  render_range_block Z Z 0%Z demo_prepare demo_frame_generate e 2 5 (empty_heap Z) = Some (true, frames, h1) /\
  render_range_file Z Z 0%Z demo_narrow demo_prepare demo_frame_generate demo_junk e 2 5 1 8000 2 (empty_heap Z) = Some (true, bytes, h2) /\
  bytes <> wav_file 1 8000 (data_bytes demo_narrow (flat 1 frames)).
Proof.
  destruct (render_block_correct Z Z 0%Z (fun _ => 0%Z) demo_prepare demo_frame_generate demo_junk demo_junk_length (demo_event 0 1 4 10) (demo_frame_stage 10) 2 5 (empty_heap Z)) as (h1 & e1 & _);
    [lia|reflexivity|cbn; lia|intros _; apply (demo_frame_plays (demo_event 0 1 4 10))|reflexivity|].
  destruct (render_file_correct Z Z 0%Z demo_narrow demo_prepare demo_frame_generate demo_junk demo_junk_length (demo_event 0 1 4 10) (demo_frame_stage 10) 2 5 1 8000 2 (empty_heap Z)) as (h2 & e2 & _);
    [lia|reflexivity|cbn; lia|apply (demo_frame_plays (demo_event 0 1 4 10))|reflexivity|lia|lia|reflexivity|].
  exists (demo_event 0 1 4 10), (demo_frame_stage 10). do 4 eexists. split; [apply (demo_frame_plays (demo_event 0 1 4 10))|]. split; [exact e1|]. split; [exact e2|]. vm_compute. discriminate.
Qed.
