(** C89: paths of numbers and envelopes. *)
From Coq Require Import QArith Qround Qabs Lqa.
From Verif Require Import Base PathModel PathSpec EnvModel EnvSpec EnvProofs.
Close Scope Q_scope.

(** sp_path_times: the nearest integers to the values of the lines, for every list of points with ascending positions *)
Theorem c89_path_times : forall root fuel size n x y c, 2 <= n <= 24 -> length y = n -> length x = n - 2 ->
  match c with Some cs => length cs = n - 1 /\ Forall (fun a => a < 1 # 100000)%Q cs | None => True end ->
  sorted (0%Q :: x ++ [inject_Z size]) -> (0 <= size < two32)%Z -> Forall (fun v => 0 <= v <= inject_Z (two32 - 1))%Q y ->
  exists out, times_call root fuel size n x y c = Some (mkoutcome out (Some 0%Z)) /\ rounds_lines size (knots size x y) out.
Proof. exact times_call_lines. Qed.
Print Assumptions c89_path_times.
Example c89_times_case : times_call (fun q => q) 0 10 3 [4%Q] [0%Q; 6%Q; 2%Q] None = Some (mkoutcome [0; 2; 3; 5; 6; 5; 5; 4; 3; 3]%Z (Some 0%Z)).
Proof. vm_compute. reflexivity. Qed.

(** sp_envelope_zero3 to 5 and c3 to c5 with small curvatures write the samples of the lines from 0 through the given points to 0.
    Missing for the full property: the returned status (c89_status_refuted) *)
Theorem c89_envelope_zero_partial : forall root fuel size, (0 <= size < two32)%Z ->
  (forall x1 y1, proper_parts [x1] ->
    exists r, envelope_zero3 root fuel size x1 y1 = Some r /\ follows_lines size (envelope_points size [x1] [0; y1; 0]%Q) (written r)) /\
  (forall x1 x2 y1 y2, proper_parts [x1; x2] ->
    exists r, envelope_zero4 root fuel size x1 x2 y1 y2 = Some r /\ follows_lines size (envelope_points size [x1; x2] [0; y1; y2; 0]%Q) (written r)) /\
  (forall x1 x2 x3 y1 y2 y3, proper_parts [x1; x2; x3] ->
    exists r, envelope_zero5 root fuel size x1 x2 x3 y1 y2 y3 = Some r /\ follows_lines size (envelope_points size [x1; x2; x3] [0; y1; y2; y3; 0]%Q) (written r)) /\
  (forall x1 y1 c1 c2, proper_parts [x1] -> Forall (fun a => a < 1 # 100000)%Q [c1; c2] ->
    exists r, envelope_zero_c3 root fuel size x1 y1 c1 c2 = Some r /\ follows_lines size (envelope_points size [x1] [0; y1; 0]%Q) (written r)) /\
  (forall x1 x2 y1 y2 c1 c2 c3, proper_parts [x1; x2] -> Forall (fun a => a < 1 # 100000)%Q [c1; c2; c3] ->
    exists r, envelope_zero_c4 root fuel size x1 x2 y1 y2 c1 c2 c3 = Some r /\ follows_lines size (envelope_points size [x1; x2] [0; y1; y2; 0]%Q) (written r)) /\
  (forall x1 x2 x3 y1 y2 y3 c1 c2 c3 c4, proper_parts [x1; x2; x3] -> Forall (fun a => a < 1 # 100000)%Q [c1; c2; c3; c4] ->
    exists r, envelope_zero_c5 root fuel size x1 x2 x3 y1 y2 y3 c1 c2 c3 c4 = Some r /\ follows_lines size (envelope_points size [x1; x2; x3] [0; y1; y2; y3; 0]%Q) (written r)).
Proof.
  intros root fuel size S. splits; intros.
  - destruct (zero3_ok root fuel size x1 y1 S H) as (r & E & F & _); eauto.
  - destruct (zero4_ok root fuel size x1 x2 y1 y2 S H) as (r & E & F & _); eauto.
  - destruct (zero5_ok root fuel size x1 x2 x3 y1 y2 y3 S H) as (r & E & F & _); eauto.
  - destruct (zero_c3_ok root fuel size x1 y1 c1 c2 S H H0) as (r & E & F & _); eauto.
  - destruct (zero_c4_ok root fuel size x1 x2 y1 y2 c1 c2 c3 S H H0) as (r & E & F & _); eauto.
  - destruct (zero_c5_ok root fuel size x1 x2 x3 y1 y2 y3 c1 c2 c3 c4 S H H0) as (r & E & F & _); eauto.
Qed.
Print Assumptions c89_envelope_zero_partial.
(** sp_envelope_scaled3 to 5 write the nearest integers to the values of the lines through the scaled points *)
Theorem c89_envelope_scaled_partial : forall root fuel size s, (0 <= size < two32)%Z ->
  let fits ys := Forall (fun y => 0 <= s * y <= inject_Z (two32 - 1))%Q ys in
  (forall x1 y1 y2 y3, proper_parts [x1] -> fits [y1; y2; y3] ->
    exists r, envelope_scaled3 root fuel size s x1 y1 y2 y3 = Some r /\ rounds_lines size (envelope_points size [x1] (map (Qmult s) [y1; y2; y3])) (written r)) /\
  (forall x1 x2 y1 y2 y3 y4, proper_parts [x1; x2] -> fits [y1; y2; y3; y4] ->
    exists r, envelope_scaled4 root fuel size s x1 x2 y1 y2 y3 y4 = Some r /\ rounds_lines size (envelope_points size [x1; x2] (map (Qmult s) [y1; y2; y3; y4])) (written r)) /\
  (forall x1 x2 x3 y1 y2 y3 y4 y5, proper_parts [x1; x2; x3] -> fits [y1; y2; y3; y4; y5] ->
    exists r, envelope_scaled5 root fuel size s x1 x2 x3 y1 y2 y3 y4 y5 = Some r /\ rounds_lines size (envelope_points size [x1; x2; x3] (map (Qmult s) [y1; y2; y3; y4; y5])) (written r)).
Proof.
  intros root fuel size s S fits. splits; intros.
  - destruct (scaled3_ok root fuel size s x1 y1 y2 y3 S H H0) as (r & E & F & _); eauto.
  - destruct (scaled4_ok root fuel size s x1 x2 y1 y2 y3 y4 S H H0) as (r & E & F & _); eauto.
  - destruct (scaled5_ok root fuel size s x1 x2 x3 y1 y2 y3 y4 y5 S H H0) as (r & E & F & _); eauto.
Qed.
Print Assumptions c89_envelope_scaled_partial.
Example c89_case :
  proper_parts [1 # 4; 1 # 2]%Q /\
  option_map (fun r => map Qred (written r)) (envelope_zero4 (fun q => q) 0 8 (1 # 4) (1 # 2) 4 2) = Some [0; 2; 4; 7 # 2; 3; 5 # 2; 2; 1]%Q /\
  option_map written (envelope_scaled3 (fun q => q) 0 4 10 (1 # 2) 0 1 0) = Some [0; 5; 10; 5]%Z.
Proof. split; [split; [repeat constructor; discriminate|vm_compute; discriminate]|]. split; vm_compute; reflexivity. Qed.
(** the status of these calls is indeterminate: the functions that the calls end with have no return statement *)
Theorem c89_status_refuted : forall A call size (x1 x2 x3 y1 y2 y3 y4 y5 c1 c2 c3 c4 : Q) (r : outcome A),
  (path2 call size y1 y2 = Some r \/ path3 call size x1 y1 y2 y3 = Some r \/ path4 call size x1 x2 y1 y2 y3 y4 = Some r \/ path5 call size x1 x2 x3 y1 y2 y3 y4 y5 = Some r \/
   path_c2 call size y1 y2 c1 = Some r \/ path_c3 call size x1 y1 y2 y3 c1 c2 = Some r \/ path_c4 call size x1 x2 y1 y2 y3 y4 c1 c2 c3 = Some r \/ path_c5 call size x1 x2 x3 y1 y2 y3 y4 y5 c1 c2 c3 c4 = Some r) ->
  status r = None.
Proof.
  assert (K : forall A (m : option (outcome A)) r, no_return m = Some r -> status r = None) by (intros A [m|] r E; [now injection E as <-|discriminate]).
  intros A call size x1 x2 x3 y1 y2 y3 y4 y5 c1 c2 c3 c4 r H. repeat (destruct H as [H|H]; [exact (K _ _ _ H)|]). exact (K _ _ _ H).
Qed.
Print Assumptions c89_status_refuted.
(** sp_envelope_zero and sp_envelope_scaled have no defined result, whatever is passed: the second element of the local array of y values is never set *)
Theorem c89_general_refuted : forall root fuel size n s x y c, 3 <= n ->
  envelope_zero root fuel size n x y c = None /\ envelope_scaled root fuel size n s x y c = None.
Proof. intros. split; [now apply envelope_zero_none|now apply envelope_scaled_none]. Qed.
Print Assumptions c89_general_refuted.
(** C89 (partial), sp_envelope_zero and sp_envelope_scaled: the loop makes positions in samples from relative parts and applies the scaling [f] to the values, for all points but the
    first two and the last. Missing: the second value, see above. *)
Theorem c89_positions_partial : forall f size n x y path_y, n - 1 <= length x -> n - 1 <= length y -> n - 1 <= length path_y ->
  exists x' path_y', envelope_loop f size n x y path_y = Some (x', path_y') /\ length x' = length x /\ length path_y' = length path_y /\
    forall i, (2 <= i < n - 1 -> exists v, nth_error x' i = Some v /\ (v == nth 1 x 0 + sum_from_2 x i * inject_Z size)%Q /\ nth_error path_y' i = Some (Some (f (nth i y 0%Q)))) /\
      (~ 2 <= i < n - 1 -> nth_error x' i = nth_error x i /\ nth_error path_y' i = nth_error path_y i).
Proof. exact envelope_loop_positions. Qed.
Print Assumptions c89_positions_partial.
Example c89_positions_case : option_map (fun r => map Qred (fst r)) (envelope_loop (fun v => v) 10 5 [0; 2; 1 # 5; 3 # 10]%Q [0; 1; 2; 3]%Q (repeat None 24)) = Some [0; 2; 4; 7]%Q.
Proof. vm_compute. reflexivity. Qed.
