From Verif Require Import Base SeqModel SeqSpec SeqListProofs SeqSeqProofs SeqLifeSpec SeqLifeProofs SeqRenderSpec SeqRenderProofs SeqRenderFinal FileModel FileSpec FileProofs RenderModel FileUseSpec RenderProofs Render2Model.

Section Render.
Variables (V D : Type).
Notation frame := (nat -> V).
Variable zero : V.
Variable narrow : V -> Z.
Variable prepare : event D -> option (event D).
Variable generate : nat -> nat -> list frame -> event D -> option (list frame * event D * bool).
Variable junk : nat -> list Z.
Hypothesis junk_length : forall n, length (junk n) = n.
Notation silence := (silence V zero).

Lemma loop_no_fault wf cc bs n : (forall k, wf k = None) -> forall k i f head h,
  render_loop_f V D zero narrow prepare generate junk wf cc bs n k i f head h = render_loop V D zero narrow prepare generate junk cc bs n i f head h.
Proof.
  intro W. induction n as [|n IH]; intros k i f head h; [reflexivity|]. cbn [render_loop_f render_loop]. destruct (sp_seq _ _ _ _ _ _ _ _ _) as [r|]; [|reflexivity]. cbn [bind].
  destruct (sr_ok _ _ r); [|reflexivity]. rewrite W. destruct (file_write _ _ _ _ _ _ _ _) as [[st f1]|]; [|reflexivity]. cbn [bind]. destruct (st =? status_success)%Z; [apply IH|reflexivity].
Qed.
Lemma range_no_fault errno wf e start end_ cc rate bs h : (forall k, wf k = None) ->
  render_range_file_f V D zero narrow prepare generate junk true errno None wf e start end_ cc rate bs h = render_range_file V D zero narrow prepare generate junk e start end_ cc rate bs h.
Proof.
  intro W. unfold render_range_file_f, render_range_file, open_handle. destruct (list_add D true None e h) as [[[o head] h1]|]; [|reflexivity]. cbn [bind].
  destruct (open_write_correct errno (junk 40) cc rate (junk_length 40)) as (f0 & w & o1 & _). destruct (open_write_correct 0 (junk 40) cc rate (junk_length 40)) as (f1 & w1 & o2 & _).
  assert (f0 = f1) as ->. { revert o1 o2. unfold open_write. repeat (match goal with |- context [bind ?m _] => destruct m; [cbn [bind]|discriminate] end).
    match goal with |- context [fwrite ?a ?b ?c] => destruct (fwrite a b c) as [[] ?] end; congruence. }
  rewrite o1, o2. cbn [bind]. change (status_success =? status_success)%Z with true. cbn [negb]. destruct (need _); [|reflexivity]. cbn [bind]. rewrite loop_no_fault by exact W.
  destruct (render_loop _ _ _ _ _ _ _ _ _ _ _ _ _ _) as [[[[ok f] head2] h2]|]; [|reflexivity]. cbn [bind]. destruct ok; cbn [negb]; [|reflexivity].
  destruct (_ =? 0); [reflexivity|]. destruct (sp_seq _ _ _ _ _ _ _ _ _) as [r|]; [|reflexivity]. cbn [bind]. destruct (sr_ok _ _ r); [|reflexivity]. rewrite W. reflexivity.
Qed.

(** the memory of a list that can only have the element at [p] *)
Definition holds (h0 : heap D) (p : nat) (head : option nat) (h : heap D) : Prop :=
  exists L, represents D h head L /\ incl (addrs D L) [p] /\ (~ In p (addrs D L) -> nodes D h p = None) /\ forall q, q <> p -> nodes D h q = nodes D h0 q.
Lemma failed_empty s u l : forall out kept log out' l' log', seq_list frame D prepare generate s u out kept l log = Some (false, out', l', log') -> l' = [].
Proof.
  induction l as [|x l IH]; intros out kept log out' l' log' E; cbn [seq_list] in E; [discriminate|].
  destruct (ev_end D x <=? s); [eauto|]. destruct (u <=? ev_start D x); [discriminate|].
  destruct (ev_prepare D x).
  - destruct (option_map (prepared D) (prepare x)) as [x1|]; [|congruence]. destruct (call_generate _ _ _ _ _ _ _) as [[[o1 x2] [|]]|]; cbn [bind] in E; [eauto|congruence|discriminate].
  - destruct (call_generate _ _ _ _ _ _ _) as [[[o1 x2] [|]]|]; cbn [bind] in E; [eauto|congruence|discriminate].
Qed.
Lemma seq_holds h0 p head h s u out r : holds h0 p head h -> sp_seq frame D prepare generate s u out head h = Some r ->
  holds h0 p (sr_head _ _ r) (sr_heap _ _ r) /\ (sr_ok _ _ r = false -> nodes D (sr_heap _ _ r) p = None).
Proof.
  intros (L & HR & I & N & O) E. pose proof (seq_correct frame D prepare generate h head L s u out HR) as HS.
  destruct (seq_list frame D prepare generate s u out [] (map snd L) []) as [[[[ok out'] l'] log']|] eqn:EL; [|congruence].
  destruct HS as [r' [Er [A [B [C [L' [El [HR' [Hi [Hg [Hf Hfr]]]]]]]]]]]. assert (r' = r) as -> by congruence.
  assert (NP : ~ In p (addrs D L') -> nodes D (sr_heap _ _ r) p = None).
  { intro NI. destruct (in_dec Nat.eq_dec p (addrs D L)) as [i|ni]; [apply Hg; auto|]. rewrite Hf by exact ni. auto. }
  split.
  - exists L'. splits; auto.
    + intros q Hq. apply I. apply Hi. exact Hq.
    + intros q Hq. rewrite Hf; [apply O; exact Hq|]. intro X. apply I in X. cbn in X. destruct X as [X|[]]. congruence.
  - intro F. apply NP. assert (l' = []) as ->.
    { subst ok. rewrite F in EL. exact (failed_empty _ _ _ _ _ _ _ _ _ EL). }
    destruct L'; [cbn; tauto|discriminate El].
Qed.
Lemma add_holds e h : nodes D h (fresh D h) = None -> exists h1, list_add D true None e h = Some (true, Some (fresh D h), h1) /\ holds h (fresh D h) (Some (fresh D h)) h1.
Proof.
  intro N. destruct (add_one V D zero narrow prepare e h) as (h1 & E & R & O). exists h1. split; [exact E|]. exists [(fresh D h, e)]. splits; auto.
  - intros q Hq. exact Hq.
  - intro X. exfalso. apply X. left. reflexivity.
Qed.
Lemma free_holds h0 p head h h' log : nodes D h0 p = None -> holds h0 p head h -> list_free D (fuel D h) head h = Some (h', log) -> forall q, nodes D h' q = nodes D h0 q.
Proof.
  intros N0 (L & HR & I & N & O) E q. destruct (represents_free V D zero narrow _ _ _ HR) as (h2 & log2 & E2 & H2). assert (h2 = h') as -> by congruence. rewrite H2.
  destruct (in_dec Nat.eq_dec q (addrs D L)) as [i|ni].
  - apply I in i. cbn in i. destruct i as [<-|[]]. congruence.
  - destruct (Nat.eq_dec q p) as [->|Hq]; [rewrite N0; auto|auto].
Qed.
Lemma write_keeps fault f samples n st f' : file_write V narrow true fault junk f samples n = Some (st, f') ->
  f_channels f' = f_channels f /\ (fault = None -> 0 < f_channels f -> 0 < n -> st = status_success).
Proof.
  unfold file_write. cbv zeta. cbn [orb need bind]. set (c := f_channels f).
  match goal with |- context [for_ 0 n ?b ?s] => destruct (for_ 0 n b s) as [fd|] eqn:E; [|discriminate]; set (body := b) in * end. cbn [bind]. intro H.
  destruct (fwrite fault (concat (map le32 fd)) (f_stream f)) as [ok s] eqn:W. split; [destruct ok; injection H as _ <-; reflexivity|].
  intros -> C N. assert (fd <> []).
  { assert (P : 0 < n -> 0 < length fd); [|specialize (P N); intros ->; cbn in P; lia].
    apply (for_inv_partial (fun i (x : list Z) => 0 < i -> 0 < length x) body 0 n _ fd (Nat.le_0_l _)) in E; auto; [lia|].
    intros i x y _ _ EB _. unfold body in EB. assert (P : 0 < c -> 0 < length y); [|auto].
    match type of EB with for_ 0 c ?b2 x = _ => apply (for_inv_partial (fun i (x : list Z) => 0 < i -> 0 < length x) b2 0 c x y (Nat.le_0_l _)) in EB; auto; [lia|] end.
    intros j u v _ _ EJ _. repeat (apply bind_some in EJ as (? & ? & EJ)). pose proof (aset_lt _ _ _ _ EJ). rewrite (aset_length _ _ _ _ EJ). lia. }
  destruct fd as [|x fd]; [congruence|]. cbn in W. injection W as <- _. congruence.
Qed.
Lemma loop_holds wf h0 p cc bs n : 0 < cc -> 0 < bs -> forall k i f head h ok f' head' h', f_channels f = cc -> holds h0 p head h ->
  render_loop_f V D zero narrow prepare generate junk wf cc bs n k i f head h = Some (ok, f', head', h') ->
  f_channels f' = cc /\ holds h0 p head' h' /\ (ok = false -> nodes D h' p = None \/ exists j, wf j <> None).
Proof.
  intros C B. induction n as [|n IH]; intros k i f head h ok f' head' h' FC H E; cbn [render_loop_f] in E.
  - injection E as <- <- <- <-. splits; auto. discriminate.
  - destruct (sp_seq _ _ _ _ _ _ _ _ _) as [r|] eqn:ES; [|discriminate]. cbn [bind] in E. destruct (seq_holds _ _ _ _ _ _ _ _ H ES) as [H1 H2].
    destruct (sr_ok _ _ r) eqn:OK.
    + destruct (file_write _ _ _ _ _ _ _ _) as [[st f1]|] eqn:EW; [|discriminate]. cbn [bind] in E. destruct (write_keeps _ _ _ _ _ _ EW) as [W1 W2].
      destruct (Z.eqb_spec st status_success) as [->|NE].
      * eapply IH; [| |exact E]; auto. congruence.
      * injection E as <- <- <- <-. splits; auto. { congruence. } intros _. right. exists k. intro X. apply NE. apply W2; auto. lia.
    + injection E as <- <- <- <-. splits; auto.
Qed.
Lemma open_channels errno cc rate f : open_write true errno None (junk 40) cc rate = Some (status_success, Some f) -> f_channels f = cc.
Proof.
  intro E. destruct (open_write_correct errno (junk 40) cc rate (junk_length 40)) as (f0 & w & o1 & _ & _ & _ & _ & o6). congruence.
Qed.
Lemma range_memory errno wf e start end_ cc rate bs h ok content h' : 0 < cc -> nodes D h (fresh D h) = None ->
  render_range_file_f V D zero narrow prepare generate junk true errno None wf e start end_ cc rate bs h = Some (ok, content, h') ->
  (forall q, q <> fresh D h -> nodes D h' q = nodes D h q) /\ (nodes D h' (fresh D h) = None \/ ok = false /\ exists k, wf k <> None).
Proof.
  intros C N E. unfold render_range_file_f, open_handle in E. destruct (add_holds e h N) as (h1 & EA & H1). rewrite EA in E. cbn [bind] in E.
  destruct (open_write_correct errno (junk 40) cc rate (junk_length 40)) as (f0 & w & o1 & _ & _ & _ & _ & o6). rewrite o1 in E. cbn [bind] in E.
  change (status_success =? status_success)%Z with true in E. cbn [negb] in E. destruct (Nat.eqb_spec bs 0) as [|NB]; [discriminate|]. cbn [negb need bind] in E.
  destruct (render_loop_f _ _ _ _ _ _ _ _ _ _ _ _ _ _ _ _) as [[[[lok f] head] h2]|] eqn:EL; [|discriminate]. cbn [bind] in E.
  destruct (loop_holds wf h (fresh D h) cc bs _ C ltac:(lia) _ _ _ _ _ _ _ _ _ o6 H1 EL) as (F2 & H2 & L2).
  assert (OUT : forall head h, holds h (fresh D h) head h -> True) by auto.
  destruct lok; cbn [negb] in E.
  - destruct (Nat.eqb_spec (duration start end_ mod bs) 0) as [|NR].
    + destruct (list_free D (fuel D h2) head h2) as [[h3 log]|] eqn:EF; [|discriminate]. cbn [bind] in E. injection E as <- _ <-.
      pose proof (free_holds _ _ _ _ _ _ N H2 EF) as Q. split; auto. left. rewrite Q. exact N.
    + destruct (sp_seq _ _ _ _ _ _ _ _ _) as [r|] eqn:ES; [|discriminate]. cbn [bind] in E. destruct (seq_holds _ _ _ _ _ _ _ _ H2 ES) as [H3 H4].
      destruct (sr_ok _ _ r) eqn:OK.
      * destruct (file_write _ _ _ _ _ _ _ _) as [[st f1]|] eqn:EW; [|discriminate]. cbn [bind] in E. destruct (write_keeps _ _ _ _ _ _ EW) as [W1 W2].
        destruct (Z.eqb_spec st status_success) as [->|NE].
        -- destruct (list_free D _ _ _) as [[h3 log]|] eqn:EF; [|discriminate]. cbn [bind] in E. injection E as <- _ <-.
           pose proof (free_holds _ _ _ _ _ _ N H3 EF) as Q. split; auto. left. rewrite Q. exact N.
        -- injection E as <- _ <-. destruct H3 as (L & _ & _ & _ & O). split; auto. right. split; auto. eexists. intro X. apply NE. apply (W2 X); lia.
      * injection E as <- _ <-. destruct H3 as (L & _ & _ & _ & O). split; auto.
  - injection E as <- _ <-. destruct H2 as (L & _ & _ & _ & O). split; auto. destruct (L2 eq_refl); auto.
Qed.
(** failures at opening *)
Lemma not_opened errno hf wf e start end_ cc rate bs h : errno <> status_success ->
  render_range_file_f V D zero narrow prepare generate junk false errno hf wf e start end_ cc rate bs h = None.
Proof.
  intro NE. unfold render_range_file_f, open_handle. destruct (list_add D true None e h) as [[[o head] h1]|]; [|reflexivity]. cbn [bind].
  destruct (open_write false errno hf (junk 40) cc rate) as [[st f]|] eqn:E; [|reflexivity].
  assert (st = errno /\ f = None) as [-> ->].
  { revert E. unfold open_write. repeat (match goal with |- context [bind ?m _] => destruct m; [cbn [bind]|discriminate] end). intro E. injection E as <- <-. auto. }
  cbn [bind]. destruct (Z.eqb_spec errno status_success); [contradiction|]. reflexivity.
Qed.
Lemma header_failed errno n wf e start end_ cc rate bs h :
  render_range_file_f V D zero narrow prepare generate junk true errno (Some n) wf e start end_ cc rate bs h = None.
Proof.
  unfold render_range_file_f, open_handle. destruct (list_add D true None e h) as [[[o head] h1]|]; [|reflexivity]. cbn [bind].
  destruct (open_write true errno (Some n) (junk 40) cc rate) as [[st f]|] eqn:E; [|reflexivity].
  assert (st = id_file_write /\ f = None) as [-> ->].
  { revert E. unfold open_write. repeat (match goal with |- context [bind ?m _] => destruct m; [cbn [bind]|discriminate] end). unfold fwrite. destruct (_ : list Z); intro E; injection E as <- <-; auto. }
  reflexivity.
Qed.

(** failure of the first write *)
Lemma kept_element s u out e o l log : seq_list frame D prepare generate s u out [] [e] [] = Some (true, o, l, log) -> s < ev_end D e -> l <> [].
Proof.
  intros E H. cbn [seq_list] in E. destruct (Nat.leb_spec (ev_end D e) s); [lia|]. destruct (u <=? ev_start D e); [injection E as _ <- _; discriminate|].
  destruct (ev_prepare D e).
  - destruct (option_map (prepared D) (prepare e)) as [x1|]; [|discriminate]. destruct (call_generate _ _ _ _ _ _ _) as [[[o1 x2] [|]]|]; cbn [bind] in E; try discriminate. injection E as _ <- _. discriminate.
  - destruct (call_generate _ _ _ _ _ _ _) as [[[o1 x2] [|]]|]; cbn [bind] in E; try discriminate. injection E as _ <- _. discriminate.
Qed.
Lemma first_block e g u bs h h1 : ev_start D e <= ev_end D e -> 0 < ev_end D e -> plays frame D prepare generate e 0 g -> u <= bs ->
  list_add D true None e h = Some (true, Some (fresh D h), h1) ->
  exists r, sp_seq frame D prepare generate 0 u (silence bs) (Some (fresh D h)) h1 = Some r /\ sr_ok _ _ r = true /\ length (sr_out _ _ r) = bs /\ nodes D (sr_heap _ _ r) (fresh D h) <> None.
Proof.
  intros WF POS PL U EA. destruct (add_one V D zero narrow prepare e h) as (h1' & EA' & HR & _). assert (h1' = h1) as -> by congruence.
  assert (HRd : ready frame D prepare generate 0 [(e, g)]). { unfold ready. splits; cbn; auto. }
  destruct (seq_list_render frame D prepare generate 0 u (Nat.le_0_l _) [(e, g)] (silence bs) [] [] HRd) as (lp & log & EL & _).
  { unfold RenderModel.silence. rewrite repeat_length. lia. }
  pose proof (seq_correct frame D prepare generate h1 _ _ 0 u (silence bs) HR) as HS. cbn [map snd fst] in HS, EL. rewrite EL in HS.
  destruct HS as [r [Er [A [B [C [L' [El [HR' [Hi [Hg [Hf Hfr]]]]]]]]]]]. exists r. splits; auto.
  - rewrite B, render_in_length. unfold RenderModel.silence. apply repeat_length.
  - pose proof (kept_element _ _ _ _ _ _ _ EL POS) as NE. cbn [app] in *. rewrite <- El in NE. destruct L' as [|[p x] L']; [cbn in NE; congruence|].
    assert (p = fresh D h) as <-. { specialize (Hi p (or_introl eq_refl)). cbn in Hi. destruct Hi as [X|[]]; auto. }
    destruct (represents_alloc D _ _ _ p x HR' (or_introl eq_refl)) as (y & Y & _). congruence.
Qed.
Lemma write_fails j f cc out n : f_channels f = cc -> 0 < cc -> 0 < n -> n <= length out -> (4 * Z.of_nat cc * Z.of_nat n < two32)%Z ->
  exists f', file_write V narrow true (Some j) junk f (channels V cc out) n = Some (id_file_write, f').
Proof.
  intros FC C N L B. rewrite (write_exact V narrow (Some j) junk f _ n (flat cc (firstn n out)) junk_length).
  - assert (NE : data_bytes narrow (flat cc (firstn n out)) <> []).
    { assert (X : length (data_bytes narrow (flat cc (firstn n out))) = 4 * cc * n).
      { rewrite (data_bytes_length V narrow _ cc); [unfold flat; rewrite map_length, firstn_length, (Nat.min_l n) by exact L; reflexivity|]. apply Forall_forall. intros x hx. unfold flat in hx. apply in_map_iff in hx as (fr & <- & _). rewrite map_length, seq_length. reflexivity. }
      intro Y. rewrite Y in X. cbn in X. nia. }
    unfold fwrite. destruct (data_bytes narrow (flat cc (firstn n out))) eqn:E; [congruence|]. eauto.
  - rewrite FC. apply (flat_frames V D zero narrow generate junk junk_length); auto.
  - rewrite FC. exact B.
Qed.
Lemma first_write_leaks errno j wf e g start end_ cc rate bs h : wf 0 = Some j -> start < end_ -> (Z.of_nat end_ < two32)%Z -> ev_start D e <= ev_end D e -> 0 < ev_end D e ->
  plays frame D prepare generate e 0 g -> 0 < cc -> 0 < bs -> (4 * Z.of_nat cc * Z.of_nat bs < two32)%Z ->
  exists content h', render_range_file_f V D zero narrow prepare generate junk true errno None wf e start end_ cc rate bs h = Some (false, content, h') /\ nodes D h' (fresh D h) <> None.
Proof.
  intros WF0 SE EB WF POS PL C B OV. unfold render_range_file_f, open_handle. destruct (add_one V D zero narrow prepare e h) as (h1 & EA & _). rewrite EA. cbn [bind].
  destruct (open_write_correct errno (junk 40) cc rate (junk_length 40)) as (f0 & w & o1 & _ & _ & _ & _ & o6). rewrite o1. cbn [bind].
  change (status_success =? status_success)%Z with true. cbn [negb]. destruct (Nat.eqb_spec bs 0) as [|_]; [lia|]. cbn [negb need bind].
  assert (hdur : duration start end_ = end_ - start) by (unfold duration; rewrite u32_small by lia; lia). rewrite hdur.
  set (d := end_ - start) in *. assert (D0 : 0 < d) by (unfold d; lia). pose proof (Nat.div_mod d bs ltac:(lia)) as DM. pose proof (Nat.mod_upper_bound d bs ltac:(lia)) as RM.
  destruct (d / bs) as [|n] eqn:EN.
  - cbn [render_loop_f bind negb]. destruct (Nat.eqb_spec (d mod bs) 0) as [X|NR]; [lia|]. cbn [Nat.mul Nat.add].
    destruct (first_block e g (d mod bs) bs h h1 WF POS PL ltac:(lia) EA) as (r & ER & OK & LO & LK). rewrite ER. cbn [bind]. rewrite OK, WF0.
    destruct (write_fails j f0 cc (sr_out _ _ r) (d mod bs) o6 C ltac:(lia) ltac:(lia) ltac:(nia)) as (f' & EW). rewrite EW. cbn [bind].
    change (id_file_write =? status_success)%Z with false. cbv iota. eauto.
  - cbn [render_loop_f Nat.add]. destruct (first_block e g bs bs h h1 WF POS PL ltac:(lia) EA) as (r & ER & OK & LO & LK). rewrite ER. cbn [bind]. rewrite OK, WF0.
    destruct (write_fails j f0 cc (sr_out _ _ r) bs o6 C ltac:(lia) ltac:(lia) ltac:(nia)) as (f' & EW). rewrite EW. cbn [bind].
    change (id_file_write =? status_success)%Z with false. cbn [bind negb]. eauto.
Qed.

(** sp_render_file *)
Lemma render_file_whole errno wf e e1 g cc rate h : (forall k, wf k = None) ->
  (if ev_end D e =? 0 then if ev_prepare D e then option_map (prepared D) (prepare e) else Some e else Some e) = Some e1 ->
  (Z.of_nat (ev_end D e1) < two32)%Z -> ev_start D e1 <= ev_end D e1 -> plays frame D prepare generate e1 0 g -> nodes D h (fresh D h) = None ->
  0 < cc -> (0 < rate)%Z -> (4 * rate < two32)%Z -> (36 + 4 * Z.of_nat cc * Z.of_nat (ev_end D e1) < two32)%Z ->
  exists h', render_file V D zero narrow prepare generate junk true errno None wf e cc rate h =
      Some (true, Some (wav_file cc rate (data_bytes narrow (flat cc (render frame D [(e1, g)] 0 (silence (ev_end D e1)))))), h') /\
    forall q, nodes D h' q = nodes D h q.
Proof.
  intros W EP EB WF PL N C R R4 OV. unfold render_file. rewrite EP. destruct (Z.eqb_spec rate 0) as [|_]; [lia|]. cbn [negb need bind]. rewrite range_no_fault by exact W.
  rewrite u32_small by lia.
  destruct (render_file_correct V D zero narrow prepare generate junk junk_length e1 g 0 (ev_end D e1) cc rate (Z.to_nat (4 * rate)) h (Nat.le_0_l _) EB WF PL N C ltac:(lia)) as (h' & E & Q).
  { rewrite Nat.sub_0_r. exact OV. }
  rewrite E. cbn [bind]. rewrite Nat.sub_0_r. eauto.
Qed.
End Render.
