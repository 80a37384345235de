(** Final forms of the filter results *)
From Verif Require Import Base ConvolveModel ConvolveSpec ConvolveProofs ConvolveFinal FilterModel FilterSpec FilterProofs FilterDemo.

Section Final.
Variable V : Type.
Variables (zero : V) (add mul : V -> V -> V).
Variable ir_f : nat -> list Z -> option (list V).
Variable junk : nat -> list V.
Variable junkb : nat -> list Z.
Variable h0 : heap V.

Lemma total_map_segment (calls : list (call V)) :
  total V (map (segment V ir_f) calls) = length (concat (map (c_in V) calls)).
Proof. unfold total; rewrite map_map; reflexivity. Qed.

Lemma filter_requested_response f n calls :
  (forall n, length (junk n) = n) -> (forall n, length (junkb n) = n) ->
  Forall (fun c => c_f V c = f /\ length (c_args V c) = n) calls ->
  Forall (responds V ir_f) calls ->
  tails_fit V 0 (map (segment V ir_f) calls) ->
  exists outs st h',
    run_calls V zero add mul ir_f (fun _ => true) junk junkb calls None h0 = Some (outs, st, h') /\
    Forall (fun r => fst r = Ok tt) outs /\
    concat (map snd outs) =
      map (overlap_add V add mul zero (map (segment V ir_f) calls)) (seq 0 (length (concat (map (c_in V) calls)))).
Proof.
  intros Hj Hjb HF HR HT.
  destruct (run_values_start V zero add mul ir_f junk junkb Hj Hjb h0 calls f n HF HR HT) as (outs & st & h' & E & F & C).
  exists outs, st, h'; splits; auto; rewrite C, total_map_segment; reflexivity.
Qed.

Lemma filter_segmentation f args ir inputs :
  (forall n, length (junk n) = n) -> (forall n, length (junkb n) = n) ->
  ir_f f args = Some ir -> ir <> [] ->
  exists outs st h',
    run_calls V zero add mul ir_f (fun _ => true) junk junkb
      (map (fun a => {| c_in := a; c_f := f; c_args := args |}) inputs) None h0 = Some (outs, st, h') /\
    Forall (fun r => fst r = Ok tt) outs /\
    concat (map snd outs) = conv_samples V zero add mul (concat inputs) ir 0 (length (concat inputs)).
Proof.
  intros Hj Hjb Hf Hne; apply length_pos in Hne.
  set (calls := map (fun a => {| c_in := a; c_f := f; c_args := args |}) inputs).
  assert (Hin : forall c, In c calls -> c_f V c = f /\ c_args V c = args).
  { intros c Hc; apply in_map_iff in Hc; destruct Hc as (a & <- & _); auto. }
  assert (Hseg : map (segment V ir_f) calls = map (fun a => (a, ir)) inputs).
  { unfold calls; rewrite map_map; apply map_ext; intros a; unfold segment; simpl; rewrite Hf; reflexivity. }
  assert (Hfit : forall prev, prev <= length ir -> tails_fit V prev (map (fun a => (a, ir)) inputs)).
  { clear -V; induction inputs as [|a l IH]; intros prev Hp; simpl; auto; split; [lia|apply IH; lia]. }
  destruct (filter_requested_response f (length args) calls Hj Hjb) as (outs & st & h' & E & F & C).
  - apply Forall_forall; intros c Hc; destruct (Hin c Hc) as [-> ->]; auto.
  - apply Forall_forall; intros c Hc; destruct (Hin c Hc) as [E1 E2]; exists ir; rewrite E1, E2; auto.
  - rewrite Hseg; apply Hfit; lia.
  - exists outs, st, h'; splits; auto; rewrite C, Hseg.
    assert (Hi : map (c_in V) calls = inputs) by (unfold calls; rewrite map_map; apply map_id).
    rewrite Hi; unfold conv_samples; apply map_ext; intros t; apply overlap_add_same.
Qed.

Lemma filter_ownership calls :
  (forall n, length (junk n) = n) -> (forall n, length (junkb n) = n) ->
  Forall (responds V ir_f) calls ->
  exists outs st h' h'',
    run_calls V zero add mul ir_f (fun _ => true) junk junkb calls None h0 = Some (outs, st, h') /\
    Forall (fun r => fst r = Ok tt) outs /\
    state_free V st h' = Some h'' /\
    forall p, load V h'' p = load V h0 p.
Proof.
  intros Hj Hjb HR.
  destruct (run_good V zero add mul ir_f junk junkb Hj Hjb h0 calls None h0) as (outs & st & h' & E & G & F & _); auto.
  { left; auto. }
  destruct (free_good V zero add mul ir_f junk junkb Hj Hjb h0 st h' G) as (h'' & E2 & L2).
  exists outs, st, h', h''; splits; auto.
Qed.
End Final.

Lemma filter_function_switch :
  exists calls : list (call Z),
    (forall c, In c calls -> c_args Z c = [7%Z] /\ c_in Z c = [1%Z]) /\
    map (c_f Z) calls = [1; 2; 1] /\
    exists outs st h', demo_run demo_ir (fun _ => true) calls None empty_heap = Some (outs, st, h') /\
      map (overlap_add Z Z.add Z.mul 0%Z (map (segment Z demo_ir) calls)) (seq 0 3) = [1; 9; 8]%Z /\
      concat (map snd outs) = [1; 9; 9]%Z.
Proof.
  exists [demo_call [1%Z] 1 [7%Z]; demo_call [1%Z] 2 [7%Z]; demo_call [1%Z] 1 [7%Z]].
  split; [intros c [<-|[<-|[<-|[]]]]; auto|]; split; [reflexivity|].
  do 3 eexists; split; [vm_compute; reflexivity|]; split; vm_compute; reflexivity.
Qed.
Lemma filter_argument_size :
  exists calls : list (call Z),
    map (c_f Z) calls = [1; 1; 1] /\ map (c_args Z) calls = [[7]; [7;8]; [7]]%Z /\ map (c_in Z) calls = [[1;0;0]; [1;0;0]; [1;0;0]]%Z /\
    exists outs st h', demo_run demo_ir (fun _ => true) calls None empty_heap = Some (outs, st, h') /\
      map (overlap_add Z Z.add Z.mul 0%Z (map (segment Z demo_ir) calls)) (seq 0 9) = [1;7;0;1;7;8;1;7;0]%Z /\
      concat (map snd outs) = [1;7;0;1;7;8;1;7;8]%Z.
Proof.
  exists [demo_call [1;0;0]%Z 1 [7%Z]; demo_call [1;0;0]%Z 1 [7;8]%Z; demo_call [1;0;0]%Z 1 [7%Z]].
  do 3 (split; [reflexivity|]).
  do 3 eexists; split; [vm_compute; reflexivity|]; split; vm_compute; reflexivity.
Qed.
Lemma filter_failing_response :
  exists outs st h', demo_run demo_ir (fun _ => true) [demo_call [1] 1 [10]; demo_call [1] 9 [10;20]]%Z None empty_heap = Some (outs, st, h') /\
    map fst outs = [Ok tt; Fail] /\
    state_free Z st h' = None /\
    demo_run demo_ir (fun _ => true) [demo_call [1] 1 [10]]%Z st h' = None.
Proof. do 3 eexists; split; [vm_compute; reflexivity|]; splits; vm_compute; reflexivity. Qed.
Lemma filter_allocation_leak :
  exists outs h', demo_run demo_ir (fun n => n <? 1) [demo_call [1] 1 [10]]%Z None empty_heap = Some (outs, None, h') /\
    map fst outs = [Fail] /\ exists o, load Z h' 0 = Some o.
Proof. do 2 eexists; split; [vm_compute; reflexivity|]; split; [reflexivity|]; eexists; vm_compute; reflexivity. Qed.
Lemma filter_truncation :
  exists calls : list (call Z), Forall (fun c => c_f Z c = 1) calls /\
    exists outs st h', demo_run (fun _ args => Some (1%Z :: repeat 1%Z (length args))) (fun _ => true) calls None empty_heap = Some (outs, st, h') /\
      map (overlap_add Z Z.add Z.mul 0%Z (map (segment Z (fun _ args => Some (1%Z :: repeat 1%Z (length args)))) calls)) (seq 0 4) = [1; 1; 1; 1]%Z /\
      concat (map snd outs) = [1; 1; 0; 0]%Z.
Proof.
  exists [demo_call [1%Z] 1 [5;5;5]%Z; demo_call [0%Z] 1 []; demo_call [0%Z] 1 []; demo_call [0%Z] 1 []].
  split; [repeat constructor|].
  do 3 eexists; split; [vm_compute; reflexivity|]; split; vm_compute; reflexivity.
Qed.
