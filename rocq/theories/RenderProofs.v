From Verif Require Import Base SeqModel SeqSpec SeqListProofs SeqSeqProofs SeqLifeSpec SeqLifeProofs SeqRenderSpec SeqRenderProofs SeqRenderFinal FileModel FileSpec FileProofs RenderModel FileUseSpec.

Lemma app_same_length {A} (a b : list A) : forall x y, a ++ x = b ++ y -> length a = length b -> a = b /\ x = y.
Proof.
  revert b. induction a as [|u a IH]; intros [|v b] x y e hl; cbn in *; try lia; [auto|]. injection e as <- e. destruct (IH b x y e ltac:(lia)) as [-> ->]. auto.
Qed.
Section Render.
Variables (V D : Type).
Notation frame := (nat -> V).
Variable zero : V.
Variable narrow : V -> Z.
Variable prepare : event D -> option (event D).
Variable generate : nat -> nat -> list frame -> event D -> option (list frame * event D * bool).
Variable junk : nat -> list Z.
Hypothesis junk_length : forall n, length (junk n) = n.
Notation run := (run_blocks frame D prepare generate).
Notation silence := (silence V zero).

Lemma flat_frames cc out n : n <= length out -> frames_of cc (channels V cc out) n (flat cc (firstn n out)).
Proof.
  intros h. split; [unfold flat; rewrite map_length, firstn_length; lia|]. intros i hi. unfold flat. rewrite nth_error_map, nth_error_firstn by exact hi.
  destruct (nth_error_some out i) as [fr e]; [lia|]. rewrite e. cbn [option_map]. eexists. split; [reflexivity|]. split; [rewrite map_length, seq_length; reflexivity|].
  intros j hj. unfold channels. rewrite nth_error_map, nth_error_map.
  replace (nth_error (seq 0 cc) j) with (Some j) by (symmetry; rewrite (nth_error_nth' _ 0) by (rewrite seq_length; exact hj); rewrite seq_nth by exact hj; reflexivity).
  cbn [option_map]. eexists. exists (fr j). split; [reflexivity|]. rewrite nth_error_map, e. auto.
Qed.
Fixpoint blocks_list (bs n i : nat) : list (nat * list frame) :=
  match n with O => [] | S n => (i + bs, silence bs) :: blocks_list bs n (i + bs) end.

Lemma loop_correct cc rate bs n : forall i f data head h tail r, 0 < cc -> 0 < bs -> writing f cc rate data ->
  run i (blocks_list bs n i ++ tail) head h = Some r -> rr_ok _ _ r = true -> Forall (fun o => length o = bs) (rr_outs _ _ r) ->
  (Z.of_nat (length data) + 4 * Z.of_nat cc * Z.of_nat (n * bs) < two32)%Z ->
  exists f' head' h' outs r', render_loop V D zero narrow prepare generate junk cc bs n i f head h = Some (true, f', head', h') /\
    length outs = n /\ rr_outs _ _ r = outs ++ rr_outs _ _ r' /\ writing f' cc rate (data ++ data_bytes narrow (flat cc (concat outs))) /\
    run (i + n * bs) tail head' h' = Some r' /\ rr_ok _ _ r' = true /\ rr_heap _ _ r' = rr_heap _ _ r /\ rr_head _ _ r' = rr_head _ _ r.
Proof.
  induction n as [|n IH]; intros i f data head h tail r hc hbs hw hr hok hF hb.
  - exists f, head, h, [], r. cbn in *. rewrite Nat.add_0_r, app_nil_r. splits; auto.
  - cbn [blocks_list app run_blocks render_loop] in *.
    destruct (sp_seq frame D prepare generate i (i + bs) (silence bs) head h) as [q|] eqn:eq; [|discriminate]. cbn [bind] in *.
    destruct (sr_ok _ _ q) eqn:eok; [|injection hr as <-; discriminate].
    destruct (run_blocks frame D prepare generate (i + bs) (blocks_list bs n (i + bs) ++ tail) (sr_head _ _ q) (sr_heap _ _ q)) as [q2|] eqn:eq2; [|discriminate].
    cbn [bind] in hr. injection hr as <-. cbn [rr_ok rr_outs rr_heap rr_head] in *. pose proof (Forall_inv hF) as hl. pose proof (Forall_inv_tail hF) as hF2. cbn beta in hl.
    destruct (write_writing V narrow junk f (channels V cc (sr_out _ _ q)) bs (flat cc (sr_out _ _ q)) cc rate data junk_length hw) as (f1 & e1 & w1); auto.
    { pose proof (flat_frames cc (sr_out _ _ q) bs ltac:(lia)) as hfl. rewrite firstn_all2 in hfl by lia. exact hfl. }
    { nia. }
    rewrite e1. cbn [bind Z.eqb status_success].
    assert (hdl : length (data_bytes narrow (flat cc (sr_out _ _ q))) = 4 * cc * bs).
    { rewrite (data_bytes_length V narrow _ cc); [unfold flat; rewrite map_length, hl; reflexivity|]. apply Forall_forall. intros x hx. unfold flat in hx. apply in_map_iff in hx as (fr & <- & _). rewrite map_length, seq_length. reflexivity. }
    destruct (IH (i + bs) f1 _ _ _ tail q2 hc hbs w1 eq2 hok hF2) as (f' & head' & h' & outs & r' & k1 & k2 & k3 & k4 & k5 & k6 & k7 & k8); [rewrite app_length, hdl; nia|].
    exists f', head', h', (sr_out _ _ q :: outs), r'. splits; auto.
    + cbn. lia.
    + cbn [app]. rewrite <- k3. reflexivity.
    + cbn [concat]. unfold flat in *. rewrite map_app, data_bytes_app, app_assoc. exact k4.
    + rewrite <- k5. f_equal. lia.
Qed.
Lemma blocks_list_fit bs n : forall i tail, 0 < bs -> blocks_fit frame (i + n * bs) tail -> blocks_fit frame i (blocks_list bs n i ++ tail).
Proof.
  induction n as [|n IH]; intros i tail hb ht; cbn [blocks_list app blocks_fit]; [rewrite Nat.add_0_r in ht; exact ht|].
  unfold RenderModel.silence. rewrite repeat_length. splits; try lia. apply IH; [exact hb|]. replace (i + bs + n * bs) with (i + S n * bs) by lia. exact ht.
Qed.
Lemma render_repeat lp t a b : render frame D lp t (silence (a + b)) = render frame D lp t (silence a) ++ render frame D lp (t + a) (silence b).
Proof. unfold render, RenderModel.silence. rewrite repeat_app, mapi_app, repeat_length. reflexivity. Qed.
Lemma render_list_lengths lp bs n : forall i tail, Forall (fun o => length o = bs) (render_blocks frame D lp (i + n * bs) tail) -> Forall (fun o => length o = bs) (render_blocks frame D lp i (blocks_list bs n i ++ tail)).
Proof.
  induction n as [|n IH]; intros i tail h; cbn [blocks_list app render_blocks]; [rewrite Nat.add_0_r in h; exact h|]. constructor.
  - rewrite app_length. unfold render. rewrite mapi_length, firstn_length, skipn_length. unfold RenderModel.silence. rewrite repeat_length. lia.
  - apply IH. replace (i + bs + n * bs) with (i + S n * bs) by lia. exact h.
Qed.
Lemma render_list_concat lp bs n : forall i tail, exists outs, length outs = n /\ render_blocks frame D lp i (blocks_list bs n i ++ tail) = outs ++ render_blocks frame D lp (i + n * bs) tail /\
  concat outs = render frame D lp i (silence (n * bs)).
Proof.
  induction n as [|n IH]; intros i tail; cbn [blocks_list app render_blocks].
  - exists []. rewrite Nat.add_0_r. splits; auto.
  - destruct (IH (i + bs) tail) as (outs & h1 & h2 & h3). eexists (_ :: outs). splits; [cbn; lia| |].
    + cbn [app]. f_equal. rewrite h2. f_equal. f_equal. lia.
    + cbn [concat]. rewrite h3. cbn [Nat.mul]. rewrite render_repeat. f_equal. replace (i + bs - i) with bs by lia. unfold RenderModel.silence. rewrite firstn_all2, skipn_all2 by (rewrite repeat_length; lia). apply app_nil_r.
Qed.

Definition is_empty (h h0 : heap D) : Prop := forall q, q < fresh D h0 -> nodes D h q = nodes D h0 q.
Lemma represents_free h head L : represents D h head L -> exists h' log, list_free D (fuel D h) head h = Some (h', log) /\
  (forall q, nodes D h' q = if in_dec Nat.eq_dec q (addrs D L) then None else nodes D h q).
Proof.
  intros HR. pose proof (represents_length _ _ _ _ HR) as hl. destruct HR as (h1 & h2 & h3). destruct (free_correct D L (fuel D h) h head None h1 h2) as (h' & e & _ & hn); [unfold fuel; lia|]. eauto.
Qed.
Lemma add_one e h : exists h1, list_add D true None e h = Some (true, Some (fresh D h), h1) /\ represents D h1 (Some (fresh D h)) [(fresh D h, e)] /\
  (forall q, q <> fresh D h -> nodes D h1 q = nodes D h q).
Proof.
  eexists. split; [reflexivity|]. split.
  - split; [cbn; splits; auto; exists None; rewrite Nat.eqb_refl; auto|]. split; [repeat constructor; cbn; tauto|]. constructor; [cbn; lia|constructor].
  - intros q hq. cbn. destruct (Nat.eqb_spec q (fresh D h)); [contradiction|reflexivity].
Qed.

(** running blocks for one event: succeeds and the rest of the list can be freed, which leaves no new memory *)
Lemma run_one e g t blocks h : ev_start D e <= ev_end D e -> (t < ev_end D e -> plays frame D prepare generate e (t - ev_start D e) g) -> blocks_fit frame t blocks ->
  nodes D h (fresh D h) = None ->
  exists h1 r, list_add D true None e h = Some (true, Some (fresh D h), h1) /\
    run t blocks (Some (fresh D h)) h1 = Some r /\ rr_ok _ _ r = true /\ rr_outs _ _ r = render_blocks frame D [(e, g)] t blocks /\
    exists h2 log, list_free D (fuel D (rr_heap _ _ r)) (rr_head _ _ r) (rr_heap _ _ r) = Some (h2, log) /\ forall q, nodes D h2 q = nodes D h q.
Proof.
  intros hwf hpl hb hnew. destruct (add_one e h) as (h1 & e1 & hR & hn). exists h1.
  assert (HRd : ready frame D prepare generate t [(e, g)]).
  { unfold ready. splits; cbn; auto. }
  destruct (run_list_render frame D prepare generate blocks t _ HRd hb) as [u [lp' [log E]]].
  pose proof (run_list_correct frame D prepare generate blocks t h1 _ _ hR) as HC. cbn [map snd fst] in HC, E. rewrite E in HC.
  destruct HC as [r [L' [A [B [C [_ [_ [HR' [_ [Hi [Hg Hf]]]]]]]]]]]. exists r. splits; auto.
  destruct (represents_free _ _ _ HR') as (h2 & log2 & e2 & hn2). exists h2, log2. split; [exact e2|]. intros q. rewrite hn2.
  cbn [addrs map fst] in Hi, Hg, Hf. destruct (in_dec Nat.eq_dec q (addrs D L')) as [i|ni].
  - apply Hi in i. cbn in i. destruct i as [<-|[]]. auto.
  - destruct (Nat.eq_dec q (fresh D h)) as [->|hne]; [rewrite hnew; apply Hg; [left; reflexivity|exact ni]|].
    rewrite Hf by (cbn; intros [x|[]]; auto). apply hn. exact hne.
Qed.

Lemma render_block_correct e g start end_ h : start < end_ -> (Z.of_nat end_ < two32)%Z -> ev_start D e <= ev_end D e ->
  (start < ev_end D e -> plays frame D prepare generate e (start - ev_start D e) g) -> nodes D h (fresh D h) = None ->
  exists h', render_range_block V D zero prepare generate e start end_ h = Some (true, render frame D [(e, g)] start (silence (end_ - start)), h') /\
    forall q, nodes D h' q = nodes D h q.
Proof.
  intros hlt hb hwf hpl hnew.
  assert (hdur : duration start end_ = end_ - start) by (unfold duration; rewrite u32_small by lia; lia).
  destruct (run_one e g start [(end_, silence (end_ - start))] h hwf hpl) as (h1 & r & e1 & e2 & e3 & e4 & h2 & log & e5 & hn); auto.
  { cbn. unfold RenderModel.silence. rewrite repeat_length. splits; lia. }
  unfold render_range_block. rewrite e1. cbn [bind]. rewrite hdur. cbn [run_blocks] in e2.
  destruct (sp_seq frame D prepare generate start end_ (silence (end_ - start)) (Some (fresh D h)) h1) as [q|]; [|discriminate]. cbn [bind] in *.
  destruct (sr_ok _ _ q); injection e2 as <-; cbn [rr_ok rr_outs rr_heap rr_head] in *; [|discriminate].
  rewrite e5. cbn [bind]. exists h2. split; [|exact hn]. do 3 f_equal. cbn [render_blocks] in e4. injection e4 as ->.
  unfold RenderModel.silence. rewrite firstn_all2, skipn_all2 by (rewrite repeat_length; lia). apply app_nil_r.
Qed.

Lemma render_file_correct e g start end_ cc rate bs h : start <= end_ -> (Z.of_nat end_ < two32)%Z -> ev_start D e <= ev_end D e ->
  plays frame D prepare generate e 0 g -> nodes D h (fresh D h) = None ->
  0 < cc -> 0 < bs -> (36 + 4 * Z.of_nat cc * Z.of_nat (end_ - start) < two32)%Z ->
  exists h', render_range_file V D zero narrow prepare generate junk e start end_ cc rate bs h =
      Some (true, wav_file cc rate (data_bytes narrow (flat cc (render frame D [(e, g)] 0 (silence (end_ - start))))), h') /\
    forall q, nodes D h' q = nodes D h q.
Proof.
  intros hle hb32 hwf hpl hnew hc hbs hb. unfold render_range_file.
  assert (hdur : duration start end_ = end_ - start) by (unfold duration; rewrite u32_small by lia; lia). rewrite hdur.
  set (d := end_ - start) in *. set (n := d / bs). set (rm := d mod bs).
  assert (hd : d = n * bs + rm) by (unfold n, rm; rewrite (Nat.mul_comm); apply Nat.div_mod; lia). assert (hrm : rm < bs) by (apply Nat.mod_upper_bound; lia).
  set (tail := if rm =? 0 then [] else [(n * bs + rm, silence bs)]).
  assert (htf : blocks_fit frame (0 + n * bs) tail).
  { unfold tail. destruct (Nat.eqb_spec rm 0); cbn; auto. unfold RenderModel.silence. rewrite repeat_length. splits; lia. }
  destruct (run_one e g 0 (blocks_list bs n 0 ++ tail) h hwf) as (h1 & r & e1 & e2 & e3 & e4 & h2 & log & e5 & hn); auto.
  { apply blocks_list_fit; auto. }
  rewrite e1. cbn [bind].
  destruct (open_write_correct 0 (junk 40) cc rate (junk_length 40)) as (f0 & w & o1 & o2 & o3 & o4 & o5 & o6). rewrite o1. cbn [bind].
  rewrite (proj2 (Nat.eqb_neq bs 0)) by lia. cbn [negb need bind].
  pose proof (open_writing f0 cc rate w o2 o3 o4 o5 o6) as hw0.
  destruct (loop_correct cc rate bs n 0 f0 [] (Some (fresh D h)) h1 tail r hc hbs hw0 e2 e3) as (f' & head' & h' & outs & r' & k1 & k2 & k3 & k4 & k5 & k6 & k7 & k8).
  { rewrite e4. apply render_list_lengths. unfold tail. destruct (Nat.eqb_spec rm 0); constructor; [|constructor].
    rewrite app_length. unfold render. rewrite mapi_length, firstn_length, skipn_length. unfold RenderModel.silence. rewrite repeat_length. lia. }
  { cbn [length]. nia. }
  rewrite k1. cbn [bind].
  destruct (render_list_concat [(e, g)] bs n 0 tail) as (outs2 & l1 & l2 & l3).
  rewrite e4, l2 in k3. assert (eo : outs = outs2 /\ rr_outs _ _ r' = render_blocks frame D [(e, g)] (0 + n * bs) tail).
  { destruct (app_same_length outs2 outs _ _ k3 ltac:(lia)) as [-> <-]. auto. }
  destruct eo as [-> eo]. rewrite l3 in k4. cbn [app] in k4.
  assert (hlen : forall k, length (data_bytes narrow (flat cc (render frame D [(e, g)] 0 (silence k)))) = 4 * cc * k).
  { intros k. rewrite (data_bytes_length V narrow _ cc).
    - unfold flat, render. rewrite map_length, mapi_length. unfold RenderModel.silence. rewrite repeat_length. reflexivity.
    - apply Forall_forall. intros x hx. unfold flat in hx. apply in_map_iff in hx as (fr & <- & _). rewrite map_length, seq_length. reflexivity. }
  unfold tail in *. destruct (Nat.eqb_spec rm 0) as [hr0|hr0].
  - cbn [run_blocks] in k5. injection k5 as <-. cbn [rr_heap rr_head] in *. rewrite k7, k8, e5. cbn [bind]. exists h2. split; [|exact hn]. do 3 f_equal.
    replace d with (n * bs) by lia. apply close_correct; [exact k4|]. rewrite hlen. nia.
  - cbn [run_blocks] in k5. destruct (sp_seq frame D prepare generate (0 + n * bs) (n * bs + rm) (silence bs) head' h') as [q|] eqn:eq; [|discriminate].
    cbn [Nat.add] in eq. rewrite eq. cbn [bind] in *.
    destruct (sr_ok _ _ q); injection k5 as <-; cbn [rr_ok rr_outs rr_heap rr_head] in *; [|discriminate].
    cbn [render_blocks] in eo. injection eo as eo.
    assert (hol : length (sr_out _ _ q) = bs).
    { rewrite eo. rewrite app_length. unfold render. rewrite mapi_length, firstn_length, skipn_length. unfold RenderModel.silence. rewrite repeat_length. lia. }
    assert (hfo : firstn rm (sr_out _ _ q) = render frame D [(e, g)] (n * bs) (silence rm)).
    { rewrite eo. replace (n * bs + rm - n * bs) with rm by lia. cbn [Nat.add]. unfold RenderModel.silence. assert (er : firstn rm (repeat (fun _ : nat => zero) bs) = repeat (fun _ : nat => zero) rm).
      { replace bs with (rm + (bs - rm)) by lia. rewrite repeat_app, firstn_app, repeat_length, Nat.sub_diag, firstn_all2 by (rewrite repeat_length; lia). apply app_nil_r. }
      rewrite er. rewrite firstn_app. unfold render at 2. rewrite mapi_length, repeat_length, Nat.sub_diag. rewrite firstn_all2 by (unfold render; rewrite mapi_length, repeat_length; lia). apply app_nil_r. }
    destruct (write_writing V narrow junk f' (channels V cc (sr_out _ _ q)) rm (flat cc (firstn rm (sr_out _ _ q))) cc rate _ junk_length k4) as (f2 & w1 & w2); auto; try lia.
    { apply flat_frames. lia. }
    { rewrite hlen. nia. }
    rewrite w1. cbn [bind Z.eqb status_success]. rewrite k7, k8, e5. cbn [bind]. exists h2. split; [|exact hn]. do 3 f_equal.
    rewrite hfo in w2. rewrite hd, render_repeat. cbn [Nat.add]. unfold flat in *. rewrite map_app, data_bytes_app. apply close_correct; [exact w2|].
    pose proof (hlen d) as hl. rewrite hd, render_repeat, map_app, data_bytes_app in hl. cbn [Nat.add] in hl. rewrite hl. nia.
Qed.
End Render.
