(** C98 Cubic curves in paths *)
From Coq Require Import QArith Qround Qabs.
From Verif Require Import Base PathModel PathSpec CubicSpec CubicProofs.
Close Scope Q_scope.

(** For all paths of moves, lines and cubic curves with integer end points and ordered control points: when the path is sampled in one window, then sampling ends, stays inside of
    the array, and every sample of a curve is the height of a point of the curve at most half a sample away, or the mean of such values of both neighbours. After the path all is zero.
    Missing for the full property: windows that begin or end inside of curves (refuted below), fractional end points. *)
Theorem c98_cubic_partial : forall root fuel l size, l <> [] -> ordered 0 l -> (cfinal (0%Z, 0%Q) l <= size)%Z -> S (Z.to_nat (2 * cfinal (0%Z, 0%Q) l)) <= fuel ->
  exists p out, path_set root (map cbuild l) = Some p /\ get_all fuel p [(0%Z, size)] = Some [out] /\ length out = Z.to_nat size /\
  (forall i a k, nth_error l i = Some a -> (fst (cstart (0%Z, 0%Q) l i) <= Z.of_nat k < fst (cend a))%Z ->
    exists v, nth_error out k = Some v /\ csample (fst (cstart (0%Z, 0%Q) l i)) (snd (cstart (0%Z, 0%Q) l i)) a (Z.of_nat k) v) /\
  (forall k, (cfinal (0%Z, 0%Q) l <= Z.of_nat k < size)%Z -> exists v, nth_error out k = Some v /\ (v == 0)%Q).
Proof. exact path_cubic. Qed.
Print Assumptions c98_cubic_partial.
Definition demo_cubic : list cpart := [CMove 0 1; CCubic (0, 1)%Q (0, 1)%Q 10 11; CLine 12 3].
Example c98_instance : ordered 0 demo_cubic /\ cfinal (0%Z, 0%Q) demo_cubic = 12%Z /\
  exists p out, path_set (fun q => q) (map cbuild demo_cubic) = Some p /\ get_all 25 p [(0, 13)]%Z = Some [out] /\
  map Qred out = [1143 # 800; 9 # 4; 79 # 25; 443 # 100; 167 # 32; 153 # 25; 5713 # 800; 829 # 100; 14291 # 1600; 7659 # 800; 11; 7; 0]%Q.
Proof. split; [cbn; repeat split; try discriminate; unfold two32; reflexivity|]. split; [reflexivity|]. eexists. eexists. split; [reflexivity|]. split; vm_compute; reflexivity. Qed.
(** a window that ends inside of a curve: an element after the end of the array is written *)
Theorem c98_window_refuted : exists p, path_set (fun q => q) (map cbuild demo_cubic) = Some p /\ get_all 25 p [(0, 12)%Z] <> None /\ get_all 25 p [(0, 8)]%Z = None /\
  exists out p', path_get 25 p 0 8 (repeat (-1)%Q 9) 0 = Some (true, out, p') /\ option_map Qred (nth_error out 8) = Some (14291 # 1600)%Q.
Proof. eexists. split; [reflexivity|]. split; [vm_compute; discriminate|]. split; [vm_compute; reflexivity|]. eexists. eexists. split; vm_compute; reflexivity. Qed.
Print Assumptions c98_window_refuted.
