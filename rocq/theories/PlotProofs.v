From Verif Require Import Base FftModel FftSpec FftUseProofs SeqModel SeqSpec SeqRenderSpec SeqRenderProofs RenderModel RenderProofs PlotModel PlotSpec.
From Coq Require Import Reals.
Open Scope nat_scope.


(** ** numbers *)
Lemma digits_step fuel n : (10 <= n)%Z -> digits (S fuel) n = digits fuel (n / 10) ++ [48 + n mod 10]%Z.
Proof. intro H. cbn [digits]. destruct (Z.ltb_spec n 10); [lia|reflexivity]. Qed.
Lemma digits_ok fuel : forall n, (0 <= n < 10 ^ Z.of_nat (S fuel))%Z ->
  number (digits fuel n) = n /\ Forall (fun d => 48 <= d <= 57)%Z (digits fuel n).
Proof.
  induction fuel as [|fuel IH]; intros n H.
  - cbn [digits]. change (10 ^ Z.of_nat 1)%Z with 10%Z in H. destruct (Z.ltb_spec n 10); [|lia]. split; [unfold number; cbn [fold_left]; lia|]. constructor; [lia|constructor].
  - cbn [digits]. destruct (Z.ltb_spec n 10). { split; [unfold number; cbn [fold_left]; lia|]. constructor; [lia|constructor]. }
    pose proof (Z.mod_pos_bound n 10 ltac:(lia)) as M. pose proof (Z.div_mod n 10 ltac:(lia)) as DM.
    destruct (IH (n / 10)%Z) as [E F].
    { split; [apply Z.div_pos; lia|]. apply Z.div_lt_upper_bound; [lia|]. replace (10 * 10 ^ Z.of_nat (S fuel))%Z with (10 ^ Z.of_nat (S (S fuel)))%Z by (rewrite (Nat2Z.inj_succ (S fuel)), Z.pow_succ_r by lia; reflexivity). lia. }
    split; [|apply Forall_app; split; [exact F|constructor; [lia|constructor]]]. unfold number in *. rewrite fold_left_app. cbn [fold_left]. rewrite E. lia.
Qed.
Lemma digits_length fuel : forall n k, (k <= fuel)%nat -> (10 ^ Z.of_nat k <= n < 10 ^ Z.of_nat (S k))%Z -> length (digits fuel n) = S k.
Proof.
  induction fuel as [|fuel IH]; intros n k K H.
  - assert (k = 0) as -> by lia. change (10 ^ Z.of_nat 1)%Z with 10%Z in H. cbn [digits]. destruct (Z.ltb_spec n 10); [reflexivity|lia].
  - destruct k as [|k].
    + change (10 ^ Z.of_nat 1)%Z with 10%Z in H. cbn [digits]. destruct (Z.ltb_spec n 10); [reflexivity|lia].
    + assert (P : forall j, (10 ^ Z.of_nat (S j) = 10 * 10 ^ Z.of_nat j)%Z) by (intro j; rewrite Nat2Z.inj_succ, Z.pow_succ_r by lia; reflexivity).
      rewrite (P (S k)) in H. rewrite (P k) in H. assert (0 < 10 ^ Z.of_nat k)%Z by (apply Z.pow_pos_nonneg; lia).
      rewrite digits_step by lia. rewrite app_length, (IH _ k); [cbn; lia|lia|]. rewrite (P k). split; [apply Z.div_le_lower_bound; lia|apply Z.div_lt_upper_bound; lia].
Qed.
Lemma decimal_number n : (0 <= n < two32)%Z -> number (decimal n) = n /\ Forall (fun d => 48 <= d <= 57)%Z (decimal n).
Proof. intro H. apply digits_ok. split; [lia|]. eapply Z.lt_trans; [apply H|]. reflexivity. Qed.
Lemma decimal_short n : (0 <= n < 1000000000)%Z -> length (decimal n) <= 9.
Proof.
  intro H. unfold decimal. destruct (Z.eq_dec n 0) as [->|N]; [cbn; lia|].
  assert (C : exists k, k < 9 /\ (10 ^ Z.of_nat k <= n < 10 ^ Z.of_nat (S k))%Z).
  { assert (X : forall j, (10 ^ Z.of_nat j <= n)%Z \/ exists k, k < j /\ (10 ^ Z.of_nat k <= n < 10 ^ Z.of_nat (S k))%Z).
    { induction j as [|j [IH|(k & K & IH)]]; [left; change (10 ^ Z.of_nat 0)%Z with 1%Z; lia| |right; exists k; split; [lia|exact IH]].
      destruct (Z.le_gt_cases (10 ^ Z.of_nat (S j)) n); [left; auto|right; exists j; split; [lia|lia]]. }
    destruct (X 9) as [Y|Y]; auto. exfalso. change (10 ^ Z.of_nat 9)%Z with 1000000000%Z in Y. lia. }
  destruct C as (k & K & C). rewrite (digits_length 20 n k); lia.
Qed.

(** ** paths *)
Definition prefix : list Z := temp_path ++ dash.
Lemma plot_path_eq i : plot_path i = prefix ++ firstn 9 (decimal i).
Proof.
  unfold plot_path, snprintf. change (Z.to_nat ((1 + Z.of_nat index_maxlength + Z.of_nat (length temp_path)) mod 256) - 1) with 22. rewrite app_assoc. change (temp_path ++ dash) with prefix.
  rewrite firstn_app. change (length prefix) with 13. change (22 - 13) with 9. rewrite firstn_all2 by (change (length prefix) with 13; lia). reflexivity.
Qed.
Lemma plot_path_inj i j : (0 <= i < 1000000000)%Z -> (0 <= j < 1000000000)%Z -> plot_path i = plot_path j -> i = j.
Proof.
  intros I J E. rewrite !plot_path_eq in E. apply app_inv_head in E. rewrite !firstn_all2 in E by (apply decimal_short; assumption).
  destruct (decimal_number i) as [<- _]; [unfold two32; lia|]. destruct (decimal_number j) as [<- _]; [unfold two32; lia|]. now rewrite E.
Qed.
Lemma plot_path_same i j : (1000000000 <= i < two32)%Z -> (1000000000 <= j < two32)%Z -> (i / 10 = j / 10)%Z -> plot_path i = plot_path j.
Proof.
  intros I J E. rewrite !plot_path_eq. f_equal.
  assert (X : forall n, (1000000000 <= n < two32)%Z -> firstn 9 (decimal n) = digits 19 (n / 10)).
  { intros n H. unfold two32 in H. unfold decimal. rewrite digits_step by lia. assert (L : length (digits 19 (n / 10)) = 9).
    { apply (digits_length 19 (n / 10) 8); [lia|]. change (10 ^ Z.of_nat 8)%Z with 100000000%Z. change (10 ^ Z.of_nat 9)%Z with 1000000000%Z. split; [apply Z.div_le_lower_bound; lia|apply Z.div_lt_upper_bound; lia]. }
    rewrite firstn_app, L, Nat.sub_diag. rewrite firstn_O, app_nil_r. apply firstn_all2. lia. }
  rewrite !X by assumption. now rewrite E.
Qed.

(** ** plots *)
Lemma command_complete pattern path : snprintf (length path + pattern_length pattern) (fst pattern ++ path ++ snd pattern) = fst pattern ++ path ++ snd pattern.
Proof. unfold snprintf, pattern_length. apply firstn_all2. rewrite !app_length. lia. Qed.
Lemma set_same w p c : files (set_file w p c) p = Some c. Proof. unfold set_file. cbn [files]. destruct (list_eq_dec Z.eq_dec p p); congruence. Qed.
Lemma set_other w p q c : q <> p -> files (set_file w p c) q = files w q. Proof. intro N. unfold set_file. cbn [files]. destruct (list_eq_dec Z.eq_dec q p); congruence. Qed.
Section P.
Context {V : Type}.
Variable format : V -> list Z.
Variable can_open : list Z -> bool.
Lemma to_file_ok a path w : can_open path = true -> to_file format can_open a (length a) path w = Some (set_file w path (lines format a)).
Proof.
  intro C. unfold to_file. rewrite C. cbn [need bind].
  assert (X : for_ 0 (length a) (fun i c => x <- aget a i ;; Some (c ++ format x ++ [10]%Z)) [] = Some (lines format a)).
  { destruct (for_inv (fun i (c : list Z) => c = lines format (firstn i a)) (fun i c => x <- aget a i ;; Some (c ++ format x ++ [10]%Z)) 0 (length a) []) as (c & E & P); auto; [lia| |].
    - intros i c H ->. destruct (nth_error_some a i ltac:(lia)) as [x Ex]. unfold aget. rewrite Ex. cbn [bind]. eexists. split; [reflexivity|].
      assert (FS : firstn (S i) a = firstn i a ++ [x]). { clear -Ex. revert i Ex. induction a as [|y a IH]; intros [|i] E; try discriminate; [injection E as ->; reflexivity|]. cbn [firstn app]. f_equal. apply IH. exact E. }
      rewrite FS. unfold lines. rewrite map_app, concat_app. cbn. now rewrite app_nil_r.
    - rewrite E, P. now rewrite firstn_all. }
  rewrite X. reflexivity.
Qed.
Lemma plot_ok pattern a w : can_open (plot_path (index w)) = true ->
  plot format can_open pattern a (length a) w = Some (run_file pattern (plot_path (index w)) (set_file (next_index w) (plot_path (index w)) (lines format a))).
Proof. intro C. unfold plot. cbv zeta. rewrite to_file_ok by exact C. reflexivity. Qed.
End P.

(** ** spectrum *)
Lemma spectrum_ok format can_open junk ok a path w : (forall k, length (junk k) = k) -> (forall p, ok p = true) -> can_open path = true ->
  spectrum_to_file format can_open junk true true ok a (length a) path w = Some (set_file w path (lines format (map (magnitude (length a) a) (seq 0 (length a))))).
Proof.
  intros JL OK C. unfold spectrum_to_file. cbv zeta. cbn [negb]. rewrite Nat.leb_refl. cbn [need bind]. rewrite firstn_all.
  destruct (fft_ok junk JL ok (length a) a (repeat 0%R (length a))) as (st & re & im & E & D & S); [split; [reflexivity|apply repeat_length]|]. rewrite E. cbn [bind].
  specialize (S OK). destruct D as [[_ D]|[D _]]; [|congruence]. subst st. change (0 =? 0)%Z with true. cbn [negb]. rewrite C. cbn [need bind].
  destruct D as [[L1 L2] D]. 
  assert (X : for_ 0 (length a) (fun i c => x <- aget re i ;; y <- aget im i ;; Some (c ++ format (2 * (sqrt (x * x + y * y) / INR (length a)))%R ++ [10]%Z)) [] =
    Some (concat (map (fun i => format (magnitude (length a) a i) ++ [10]%Z) (seq 0 (length a))))).
  { destruct (for_inv (fun i (c : list Z) => c = concat (map (fun i => format (magnitude (length a) a i) ++ [10]%Z) (seq 0 i)))
      (fun i c => x <- aget re i ;; y <- aget im i ;; Some (c ++ format (2 * (sqrt (x * x + y * y) / INR (length a)))%R ++ [10]%Z)) 0 (length a) []) as (c & EC & P); auto; [lia| |].
    - intros i c H ->. destruct (nth_error_some re i ltac:(lia)) as [x Ex]. destruct (nth_error_some im i ltac:(lia)) as [y Ey]. unfold aget. rewrite Ex, Ey. cbn [bind]. eexists. split; [reflexivity|].
      destruct (D i ltac:(lia)) as [D1 D2]. rewrite (nth_error_nth _ _ _ Ex) in D1. rewrite (nth_error_nth _ _ _ Ey) in D2. subst x y.
      rewrite seq_S, map_app, concat_app. cbn [map concat Nat.add]. rewrite app_nil_r. reflexivity.
    - now rewrite EC, P. }
  rewrite X. cbn [bind]. unfold lines. rewrite map_map. reflexivity.
Qed.
Lemma spectrum_leaks format can_open junk m2 ok a path w : (forall k, length (junk k) = k) ->
  (m2 = false -> spectrum_to_file format can_open junk true m2 ok a (length a) path w = Some (mkdesk (files w) (index w) (commands w) (regions w + 1))) /\
  (m2 = true -> forall re im, sp_fft junk ok (length a) (a, repeat 0%R (length a)) = Some (1%Z, (re, im)) ->
    spectrum_to_file format can_open junk true m2 ok a (length a) path w = Some (mkdesk (files w) (index w) (commands w) (regions w + 2))).
Proof.
  intro JL. split; intros ->; [reflexivity|]. intros re im E. unfold spectrum_to_file. cbv zeta. cbn [negb]. rewrite Nat.leb_refl. cbn [need bind]. rewrite firstn_all, E. reflexivity.
Qed.

(** ** all plots *)
Lemma draw_closed format can_open junk g w : (forall k, length (junk k) = k) -> can_open (plot_path (index w)) = false -> draw format can_open junk g w = None.
Proof.
  intros JL C. destruct g as [a|a|a]; cbn [draw].
  - unfold plot_samples, plot, to_file. cbv zeta. rewrite C. reflexivity.
  - unfold plot_times, plot, to_file. cbv zeta. rewrite C. reflexivity.
  - unfold plot_spectrum, spectrum_to_file. cbv zeta. cbn [negb]. rewrite Nat.leb_refl. cbn [need bind]. rewrite firstn_all.
    destruct (fft_ok junk JL (fun _ => true) (length a) a (repeat 0%R (length a))) as (st & re & im & E & D & S); [split; [reflexivity|apply repeat_length]|]. rewrite E. cbn [bind].
    specialize (S (fun _ => eq_refl)). destruct D as [[_ D]|[D _]]; [|congruence]. subst st. change (0 =? 0)%Z with true. cbn [negb]. rewrite C. reflexivity.
Qed.
Lemma draw_ok format can_open junk g w : (forall k, length (junk k) = k) -> can_open (plot_path (index w)) = true ->
  draw format can_open junk g w = Some (run_file (style g) (plot_path (index w)) (set_file (next_index w) (plot_path (index w)) (content format g))).
Proof.
  intros JL C. destruct g as [a|a|a]; cbn [draw style content].
  - apply plot_ok. exact C.
  - apply plot_ok. exact C.
  - unfold plot_spectrum. cbv zeta. rewrite spectrum_ok by auto. reflexivity.
Qed.
Lemma plots_ok format can_open junk l : (forall k, length (junk k) = k) -> (forall p, can_open p = true) -> forall w, (0 <= index w)%Z -> (index w + Z.of_nat (length l) <= 1000000000)%Z ->
  exists w', plots format can_open junk l w = Some w' /\ index w' = (index w + Z.of_nat (length l))%Z /\ regions w' = regions w /\
  (forall j g, nth_error l j = Some g -> files w' (plot_path (index w + Z.of_nat j)) = Some (content format g)) /\
  (forall p, (forall j, j < length l -> p <> plot_path (index w + Z.of_nat j)) -> files w' p = files w p) /\
  exists shown, commands w' = commands w ++ shown /\ length shown = length l /\
    forall j g, nth_error l j = Some g -> exists fs, nth_error shown j = Some (fst (style g) ++ plot_path (index w + Z.of_nat j) ++ snd (style g), fs) /\ fs (plot_path (index w + Z.of_nat j)) = Some (content format g).
Proof.
  intros JL C. induction l as [|a l IH]; intros w I B.
  - exists w. cbn. rewrite Z.add_0_r. splits; auto.
    + intros [|j] x; discriminate.
    + exists []. rewrite app_nil_r. splits; auto. intros [|j] x; discriminate.
  - cbn [plots]. rewrite draw_ok by (apply C || exact JL). cbn [bind]. remember (run_file (style a) (plot_path (index w)) (set_file (next_index w) (plot_path (index w)) (content format a))) as w1 eqn:E1.
    assert (I1 : index w1 = (index w + 1)%Z). { subst w1. change (u32 (1 + index w) = index w + 1)%Z. cbn [length] in B. rewrite u32_small by (unfold two32; lia). lia. }
    cbn [length] in B |- *. destruct (IH w1) as (w' & E & X1 & X2 & X3 & X4 & shown & X5 & X6 & X7); [lia|lia|]. exists w'. rewrite I1 in *.
    assert (F1 : files w1 (plot_path (index w)) = Some (content format a)). { subst w1. unfold run_file. cbn [files]. apply set_same. }
    splits.
    + exact E.
    + lia.
    + rewrite X2. subst w1. reflexivity.
    + intros [|j] x Ex.
      * injection Ex as <-. rewrite Z.add_0_r. rewrite X4; [exact F1|]. intros j J Y. apply plot_path_inj in Y; lia.
      * replace (index w + Z.of_nat (S j))%Z with (index w + 1 + Z.of_nat j)%Z by lia. apply X3. exact Ex.
    + intros p P. rewrite X4.
      * subst w1. unfold run_file. cbn [files]. rewrite set_other; [reflexivity|]. intro Y. apply (P 0); [lia|]. rewrite Z.add_0_r. exact Y.
      * intros j J. replace (index w + 1 + Z.of_nat j)%Z with (index w + Z.of_nat (S j))%Z by lia. apply P. lia.
    + exists ((fst (style a) ++ plot_path (index w) ++ snd (style a), files (set_file (next_index w) (plot_path (index w)) (content format a))) :: shown). splits.
      * rewrite X5. subst w1. unfold run_file. cbn [commands]. rewrite command_complete. cbn [commands set_file next_index]. rewrite <- app_assoc. reflexivity.
      * cbn. lia.
      * intros [|j] x Ex.
        -- injection Ex as <-. rewrite Z.add_0_r. eexists. split; [reflexivity|]. apply set_same.
        -- replace (index w + Z.of_nat (S j))%Z with (index w + 1 + Z.of_nat j)%Z by lia. apply X7. exact Ex.
Qed.

(** ** sp_render_plot *)
Lemma render_plot_ok (D : Type) (zero : R) prepare generate format can_open (e e1 : event D) (g : stage (nat -> R)) (cc : nat) (h : heap D) (w : desk) :
  (if ev_end D e =? 0 then if ev_prepare D e then option_map (prepared D) (prepare e) else Some e else Some e) = Some e1 ->
  0 < ev_end D e1 -> (Z.of_nat (ev_end D e1) < two32)%Z -> ev_start D e1 <= ev_end D e1 -> plays (nat -> R) D prepare generate e1 0 g -> nodes D h (fresh D h) = None -> 0 < cc ->
  can_open (plot_path (index w)) = true ->
  exists h', render_plot D zero prepare generate format can_open e cc h w =
    Some (true, h', run_file pattern_lines (plot_path (index w)) (set_file (next_index w) (plot_path (index w))
      (lines format (map (fun fr => fr 0) (render (nat -> R) D [(e1, g)] 0 (silence R zero (ev_end D e1))))))) /\ forall q, nodes D h' q = nodes D h q.
Proof.
  intros EP POS B WF PL N C O. unfold render_plot, plot_samples. rewrite EP.
  destruct (render_block_correct R D zero (fun _ => 0%Z) prepare generate (fun n => repeat 0%Z n) ltac:(intro; apply repeat_length) e1 g 0 (ev_end D e1) h POS B WF (fun _ => PL) N) as (h' & E & Q).
  rewrite Nat.sub_0_r in E. rewrite E. cbn [bind]. destruct (Nat.ltb_spec 0 cc); [|lia]. cbn [need bind].
  assert (L : length (map (fun fr : nat -> R => fr 0) (render (nat -> R) D [(e1, g)] 0 (silence R zero (ev_end D e1)))) = ev_end D e1).
  { rewrite map_length. unfold render. rewrite mapi_length. unfold silence. apply repeat_length. }
  pose proof (plot_ok format can_open pattern_lines (map (fun fr : nat -> R => fr 0) (render (nat -> R) D [(e1, g)] 0 (silence R zero (ev_end D e1)))) w O) as P. rewrite L in P. cbn [negb]. rewrite P. cbn [bind]. eauto.
Qed.
