(** C94, C95 *)
From Verif Require Import Base SeqModel SeqSpec SeqRenderSpec FileModel FileSpec RenderModel FileUseSpec Render2Model Render2Proofs SeqLifeSpec SeqRenderProofs SeqDemo FileProps.

(** C94: without failures of the file system the function is the one of C47 *)
Theorem c94_no_failure : forall (V D : Type) (zero : V) (narrow : V -> Z) prepare generate (junk : nat -> list Z), (forall n, length (junk n) = n) ->
  forall errno (write_fault : nat -> option nat) (e : event D) start end_ cc rate bs h, (forall k, write_fault k = None) ->
  render_range_file_f V D zero narrow prepare generate junk true errno None write_fault e start end_ cc rate bs h = render_range_file V D zero narrow prepare generate junk e start end_ cc rate bs h.
Proof. exact range_no_fault. Qed.
Print Assumptions c94_no_failure.

(** For every event, whatever its callbacks return, and every failure in writing blocks: after the call no list element is left, except if a write failed.
    Missing for the full property: files that cannot be opened, header writes that fail and elements after failing writes, where it is false. *)
Theorem c94_memory_partial : forall (V D : Type) (zero : V) (narrow : V -> Z) prepare generate (junk : nat -> list Z), (forall n, length (junk n) = n) ->
  forall errno (write_fault : nat -> option nat) (e : event D) start end_ cc rate bs h ok content h', 0 < cc -> nodes D h (fresh D h) = None ->
  render_range_file_f V D zero narrow prepare generate junk true errno None write_fault e start end_ cc rate bs h = Some (ok, content, h') ->
  (forall q, q <> fresh D h -> nodes D h' q = nodes D h q) /\ (nodes D h' (fresh D h) = None \/ ok = false /\ exists k, write_fault k <> None).
Proof. exact range_memory. Qed.
Print Assumptions c94_memory_partial.

(** a path that cannot be opened: the null stream is written to and closed *)
Theorem c94_open_refuted : forall (V D : Type) (zero : V) (narrow : V -> Z) prepare generate (junk : nat -> list Z) errno header_fault write_fault (e : event D) start end_ cc rate bs h,
  errno <> status_success -> render_range_file_f V D zero narrow prepare generate junk false errno header_fault write_fault e start end_ cc rate bs h = None.
Proof. exact not_opened. Qed.
Print Assumptions c94_open_refuted.

(** a header that cannot be written: the stream is used after it has been closed *)
Theorem c94_header_refuted : forall (V D : Type) (zero : V) (narrow : V -> Z) prepare generate (junk : nat -> list Z) errno n write_fault (e : event D) start end_ cc rate bs h,
  render_range_file_f V D zero narrow prepare generate junk true errno (Some n) write_fault e start end_ cc rate bs h = None.
Proof. exact header_failed. Qed.
Print Assumptions c94_header_refuted.

(** whenever the first block cannot be written, the list element of the event stays allocated *)
Theorem c94_write_leak_refuted : forall (V D : Type) (zero : V) (narrow : V -> Z) prepare generate (junk : nat -> list Z), (forall n, length (junk n) = n) ->
  forall errno j (write_fault : nat -> option nat) (e : event D) g start end_ cc rate bs h, write_fault 0 = Some j -> start < end_ -> (Z.of_nat end_ < two32)%Z ->
  ev_start D e <= ev_end D e -> 0 < ev_end D e -> plays (nat -> V) D prepare generate e 0 g -> 0 < cc -> 0 < bs -> (4 * Z.of_nat cc * Z.of_nat bs < two32)%Z ->
  exists content h', render_range_file_f V D zero narrow prepare generate junk true errno None write_fault e start end_ cc rate bs h = Some (false, content, h') /\ nodes D h' (fresh D h) <> None.
Proof. exact first_write_leaks. Qed.
Print Assumptions c94_write_leak_refuted.

Definition render_demo_faulty (errno_opened : bool) (header : option nat) (blocks : nat -> option nat) (end_ : nat) :=
  render_range_file_f Z Z 0%Z demo_narrow demo_prepare demo_frame_generate demo_junk errno_opened 2 header blocks (demo_event 0 1 4 10) 0 end_ 2 8000 2 (empty_heap Z).
Example c94_instance : plays (nat -> Z) Z demo_prepare demo_frame_generate (demo_event 0 1 4 10) 0 (demo_frame_stage 10) /\
  render_demo_faulty false None (fun _ => None) 5 = None /\ render_demo_faulty true (Some 3) (fun _ => None) 5 = None /\
  (exists content h, render_demo_faulty true None (fun k => if k =? 1 then Some 0 else None) 5 = Some (false, content, h) /\ nodes Z h 0 <> None) /\
  (exists content h, render_demo_faulty true None (fun k => if k =? 3 then Some 0 else None) 5 = Some (true, content, h) /\ nodes Z h 0 = None).
Proof.
  splits; [apply (demo_frame_plays (demo_event 0 1 4 10))|vm_compute; reflexivity|vm_compute; reflexivity| |].
  - eexists. eexists. split; [vm_compute; reflexivity|]. discriminate.
  - eexists. eexists. split; [vm_compute; reflexivity|]. reflexivity.
Qed.

(** C95: the complete event is written, also when its end is set when it is prepared *)
Theorem c95_render_file : forall (V D : Type) (zero : V) (narrow : V -> Z) prepare generate (junk : nat -> list Z), (forall n, length (junk n) = n) ->
  forall errno (write_fault : nat -> option nat) (e e1 : event D) g cc rate h, (forall k, write_fault k = None) ->
  (if ev_end D e =? 0 then if ev_prepare D e then option_map (prepared D) (prepare e) else Some e else Some e) = Some e1 ->
  (Z.of_nat (ev_end D e1) < two32)%Z -> ev_start D e1 <= ev_end D e1 -> plays (nat -> V) D prepare generate e1 0 g -> nodes D h (fresh D h) = None ->
  0 < cc -> (0 < rate)%Z -> (4 * rate < two32)%Z -> (36 + 4 * Z.of_nat cc * Z.of_nat (ev_end D e1) < two32)%Z ->
  exists h', render_file V D zero narrow prepare generate junk true errno None write_fault e cc rate h =
      Some (true, Some (wav_file cc rate (data_bytes narrow (flat cc (render (nat -> V) D [(e1, g)] 0 (silence V zero (ev_end D e1)))))), h') /\
    forall q, nodes D h' q = nodes D h q.
Proof. exact render_file_whole. Qed.
Print Assumptions c95_render_file.

(** an event without end that is prepared to play for three frames *)
Definition demo_late_prepare (e : event Z) : option (event Z) :=
  Some (if ev_end Z e =? 0 then {| ev_id := ev_id Z e; ev_start := ev_start Z e; ev_end := 3; ev_prepare := ev_prepare Z e; ev_free := ev_free Z e; ev_data := ev_data Z e |} else e).
Lemma demo_late_plays e pos : ev_end Z e <> 0 -> plays (nat -> Z) Z demo_late_prepare demo_frame_generate e pos (demo_frame_stage (ev_data Z e)).
Proof.
  intro N. exists (fun e' _ => ev_data Z e' = ev_data Z e /\ ev_end Z e' <> 0). split; [auto|]. intros e' p [Hd He]. split.
  - intros _. exists e'. unfold demo_late_prepare. destruct (Nat.eqb_spec (ev_end Z e') 0) as [|_]; [contradiction|]. splits; auto. unfold same. auto.
  - intros Hp c o rest Hc _ Ho. exists e'. unfold demo_frame_generate. rewrite (firstn_exact o rest) by auto. rewrite (skipn_exact o rest) by auto.
    rewrite Hd. splits; auto. unfold same. auto.
Qed.
Example c95_instance : exists e1, option_map (prepared Z) (demo_late_prepare (demo_event 0 0 0 10)) = Some e1 /\ ev_end Z e1 = 3 /\
  plays (nat -> Z) Z demo_late_prepare demo_frame_generate e1 0 (demo_frame_stage 10) /\
  option_map (fun r => snd (fst r)) (render_file Z Z 0%Z demo_narrow demo_late_prepare demo_frame_generate demo_junk true 0 None (fun _ => None) (demo_event 0 0 0 10) 1 2 (empty_heap Z)) =
    Some (Some (wav_file 1 2 (data_bytes demo_narrow [[10]; [11]; [12]]%Z))).
Proof. eexists. split; [reflexivity|]. splits; [reflexivity|match goal with |- plays _ _ _ _ ?e _ _ => apply (demo_late_plays e) end; discriminate|vm_compute; reflexivity]. Qed.
