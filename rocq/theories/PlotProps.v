(** C96, C97 and the rendering to plots of C95 *)
From Verif Require Import Base FftModel FftSpec KerSpec SeqModel SeqSpec SeqLifeSpec SeqRenderSpec SeqRenderProofs SeqDemo RenderModel PlotModel PlotSpec PlotProofs.
From Coq Require Import Reals.
Open Scope nat_scope.

(** C96: the first 10^9 plots of any kind in any order: each plot writes one line for each element to its own file and runs the complete command with the path of this file while it has
    this content. No other file is changed, all files keep their content, and no memory stays allocated. *)
Theorem c96_plots_partial : forall format can_open junk l, (forall k, length (junk k) = k) -> (forall p, can_open p = true) -> forall w, (0 <= index w)%Z -> (index w + Z.of_nat (length l) <= 1000000000)%Z ->
  exists w', plots format can_open junk l w = Some w' /\ index w' = (index w + Z.of_nat (length l))%Z /\ regions w' = regions w /\
  (forall j g, nth_error l j = Some g -> files w' (plot_path (index w + Z.of_nat j)) = Some (content format g)) /\
  (forall p, (forall j, j < length l -> p <> plot_path (index w + Z.of_nat j)) -> files w' p = files w p) /\
  exists shown, commands w' = commands w ++ shown /\ length shown = length l /\
    forall j g, nth_error l j = Some g -> exists fs, nth_error shown j = Some (fst (style g) ++ plot_path (index w + Z.of_nat j) ++ snd (style g), fs) /\ fs (plot_path (index w + Z.of_nat j)) = Some (content format g).
Proof. exact plots_ok. Qed.
Print Assumptions c96_plots_partial.
Theorem c96_paths_differ_partial : forall i j, (0 <= i < 1000000000)%Z -> (0 <= j < 1000000000)%Z -> plot_path i = plot_path j -> i = j.
Proof. exact plot_path_inj. Qed.
Print Assumptions c96_paths_differ_partial.
(** the numbers in paths are decimal *)
Theorem c96_decimal : forall n, (0 <= n < two32)%Z -> number (decimal n) = n /\ Forall (fun d => 48 <= d <= 57)%Z (decimal n).
Proof. exact decimal_number. Qed.
Print Assumptions c96_decimal.
(** later the last digit does not fit into the path: always ten plots share a file *)
Theorem c96_paths_refuted : forall i j, (1000000000 <= i < two32)%Z -> (1000000000 <= j < two32)%Z -> (i / 10 = j / 10)%Z -> plot_path i = plot_path j.
Proof. exact plot_path_same. Qed.
Print Assumptions c96_paths_refuted.
(** a file that cannot be opened is undefined behaviour *)
Theorem c96_open_refuted : forall format can_open junk g w, (forall k, length (junk k) = k) -> can_open (plot_path (index w)) = false -> draw format can_open junk g w = None.
Proof. exact draw_closed. Qed.
Print Assumptions c96_open_refuted.
Definition empty_desk : desk := mkdesk (fun _ => None) 8 [] 0.
Example c96_instance :
  option_map (fun w => (files w (plot_path 8), files w (plot_path 9), index w, length (commands w))) (plots (fun _ => [49]%Z) (fun _ => true) (fun n => repeat 0%R n) [GTimes [5; 12]%Z; GSamples [0]%R] empty_desk) =
    Some (Some [53; 10; 49; 50; 10], Some [49; 10], 10, 2%nat)%Z /\
  plot_path 8 = temp_path ++ [45; 56]%Z /\ plot_path 1000000007 = plot_path 1000000001 /\ number (decimal 4294967295) = 4294967295%Z.
Proof. splits; vm_compute; reflexivity. Qed.

(** C97: the file has the magnitudes of all frequencies of the discrete Fourier transform, one for each line *)
Theorem c97_spectrum_partial : forall format can_open junk ok a path w, (forall k, length (junk k) = k) -> (forall p, ok p = true) -> can_open path = true ->
  spectrum_to_file format can_open junk true true ok a (length a) path w = Some (set_file w path (lines format (map (magnitude (length a) a) (seq 0 (length a))))).
Proof. exact spectrum_ok. Qed.
Print Assumptions c97_spectrum_partial.
(** when the second allocation or the transform fails, the memory is not freed, for every input *)
Theorem c97_leak_refuted : forall format can_open junk m2 ok a path w, (forall k, length (junk k) = k) ->
  (m2 = false -> spectrum_to_file format can_open junk true m2 ok a (length a) path w = Some (mkdesk (files w) (index w) (commands w) (regions w + 1))) /\
  (m2 = true -> forall re im, sp_fft junk ok (length a) (a, repeat 0%R (length a)) = Some (1%Z, (re, im)) ->
    spectrum_to_file format can_open junk true m2 ok a (length a) path w = Some (mkdesk (files w) (index w) (commands w) (regions w + 2))).
Proof. exact spectrum_leaks. Qed.
Print Assumptions c97_leak_refuted.
Example c97_instance : magnitude 1 [3]%R 0 = 6%R /\
  (exists re im, sp_fft (fun n => repeat 0%R n) (fun _ => false) 2 ([1; 1]%R, repeat 0%R 2) = Some (1%Z, (re, im))).
Proof.
  split.
  - unfold magnitude, dft_re, dft_im, rsumf. cbn [seq map fold_left fold_right repeat nth INR]. replace (2 * PI * 0 * 0 / 1)%R with 0%R by field. rewrite cos_0, sin_0.
    match goal with |- context [sqrt ?x] => replace x with (3 * 3)%R by ring end. rewrite sqrt_square by (apply IZR_le; discriminate). field.
  - eexists. eexists. reflexivity.
Qed.

(** C95: sp_render_plot plots the first channel of the complete event *)
Theorem c95_render_plot : forall (D : Type) (zero : R) prepare generate format can_open (e e1 : event D) (g : stage (nat -> R)) (cc : nat) (h : heap D) (w : desk),
  (if ev_end D e =? 0 then if ev_prepare D e then option_map (prepared D) (prepare e) else Some e else Some e) = Some e1 ->
  0 < ev_end D e1 -> (Z.of_nat (ev_end D e1) < two32)%Z -> ev_start D e1 <= ev_end D e1 -> plays (nat -> R) D prepare generate e1 0 g -> nodes D h (fresh D h) = None -> 0 < cc ->
  can_open (plot_path (index w)) = true ->
  exists h', render_plot D zero prepare generate format can_open e cc h w =
    Some (true, h', run_file pattern_lines (plot_path (index w)) (set_file (next_index w) (plot_path (index w))
      (lines format (map (fun fr => fr 0) (render (nat -> R) D [(e1, g)] 0 (silence R zero (ev_end D e1))))))) /\ forall q, nodes D h' q = nodes D h q.
Proof. exact render_plot_ok. Qed.
Print Assumptions c95_render_plot.

Definition real_stage (d : Z) : stage (nat -> R) := fun k fr c => (fr c + IZR (d + Z.of_nat k + 100 * Z.of_nat c))%R.
Definition real_generate (a c : nat) (out : list (nat -> R)) (e : event Z) : option (list (nat -> R) * event Z * bool) :=
  Some (mapi (real_stage (ev_data Z e)) a (firstn (c - a) out) ++ skipn (c - a) out, e, true).
Example c95_plot_instance : plays (nat -> R) Z demo_prepare real_generate (demo_event 0 0 2 10) 0 (real_stage 10) /\
  lines (fun x => if Req_EM_T x 0 then [48] else [49])%Z (map (fun fr => fr 0) (render (nat -> R) Z [(demo_event 0 0 2 10, real_stage 10)] 0 (silence R 0%R 2))) = [49; 10; 49; 10]%Z.
Proof.
  split.
  - exists (fun e' _ => ev_data Z e' = 10%Z). split; [reflexivity|]. intros e' p Hd. split.
    + intros _. exists e'. splits; auto. unfold same. auto.
    + intros Hp c o rest Hc _ Ho. exists e'. unfold real_generate. rewrite (firstn_exact o rest) by auto. rewrite (skipn_exact o rest) by auto.
      rewrite Hd. splits; auto. unfold same. auto.
  - unfold lines, render, silence, real_stage. cbn. repeat (destruct (Req_EM_T _ _) as [E|_]; [exfalso; rewrite Rplus_0_l in E; apply eq_IZR in E; discriminate|]). reflexivity.
Qed.
