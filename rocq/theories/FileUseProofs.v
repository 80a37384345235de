From Verif Require Import Base FileModel FileSpec FileUseSpec FileProofs File2Proofs.

Lemma skipn_twice {A} k : forall n (l : list A), skipn n (skipn k l) = skipn (k + n) l.
Proof. induction k as [|k IH]; intros n l; [reflexivity|]. destruct l; cbn [skipn Nat.add]; [destruct n; reflexivity|apply IH]. Qed.
Section S.
Variable D : Type.
Variable narrow : D -> Z.
Variable widen : Z -> D.
Hypothesis narrow_range : forall x, (0 <= narrow x < two32)%Z.
Notation g := (fun x => widen (narrow x)).

Lemma reads_correct reads : forall f pre cc frames k, at_frame D narrow f pre cc frames k -> 0 < cc -> Forall (read_ok D cc) reads ->
  exists results, read_all D widen f reads = Some results /\ reads_expected D g cc (skipn k frames) reads results.
Proof.
  induction reads as [|[n samples] reads IH]; intros f pre cc frames k ha hc hF; [exists []; split; [reflexivity|exact I]|].
  pose proof (Forall_inv hF) as (r1 & r2 & r3). pose proof (Forall_inv_tail hF) as hF2. cbn [fst snd] in *.
  destruct (read_correct D narrow widen narrow_range f pre cc frames k n samples ha hc r1 r2 r3) as (out & s & e & h1 & h2 & h3). cbn zeta in *.
  assert (hcc : f_channels f = cc) by (destruct ha as (h & _); exact h).
  destruct (IH {| f_stream := s; f_data_size := f_data_size f; f_channels := f_channels f |} pre cc frames (k + Nat.min n (length frames - k))) as (results & e2 & hr); auto.
  cbn [read_all]. rewrite e. cbn [bind]. rewrite e2. cbn [bind]. eexists. split; [reflexivity|]. cbn [reads_expected]. rewrite skipn_length.
  assert (hk : k <= length frames) by (destruct ha as (_ & _ & _ & h & _); exact h).
  splits; auto.
  - destruct (Nat.ltb_spec 0 n); cbn [andb]; [|reflexivity].
    destruct (Nat.eqb_spec (Nat.min n (length frames - k)) 0), (Nat.eqb_spec (length frames - k) 0); auto; lia.
  - intros j c ej. destruct (h3 j c ej) as (c' & e1 & e3 & e4). exists c'. splits; auto. intros i. rewrite e4.
    assert (hb : (i <? Nat.min n (length frames - k)) = (i <? n) && (i <? length frames - k)).
    { destruct (Nat.ltb_spec i (Nat.min n (length frames - k))), (Nat.ltb_spec i n), (Nat.ltb_spec i (length frames - k)); cbn [andb]; auto; lia. }
    rewrite hb, andb_assoc, nth_error_skipn. destruct ((j <? cc) && (i <? n) && (i <? length frames - k)); [|reflexivity]. destruct (nth_error frames (k + i)); reflexivity.
  - replace (skipn n (skipn k frames)) with (skipn (k + Nat.min n (length frames - k)) frames); [exact hr|]. rewrite skipn_twice.
    destruct (Nat.le_gt_cases n (length frames - k)); [rewrite Nat.min_l by lia; f_equal; lia|]. rewrite Nat.min_r by lia. rewrite !skipn_all2 by lia. reflexivity.
Qed.
Lemma opened_at before cs cc rate chunks frames : f_channels before = cc -> Forall (fun fr => length fr = cc) frames ->
  let bytes := wav_format cs cc rate ++ wav_chunks chunks ++ chunk data_id (data_bytes narrow frames) in
  exists pre, at_frame D narrow (opened before bytes (data_bytes narrow frames)) pre cc frames 0.
Proof.
  intros hb hF bytes. exists (wav_format cs cc rate ++ wav_chunks chunks ++ data_id ++ bytes_le 4 (Z.of_nat (length (data_bytes narrow frames)))). unfold at_frame, opened. cbn [f_channels f_stream content position].
  splits; auto; [unfold bytes, chunk; rewrite <- !app_assoc; reflexivity| |lia].
  unfold bytes, chunk. rewrite !app_length. lia.
Qed.
Lemma read_file before cs cc rate chunks frames reads : f_channels before = cc -> 0 < cc -> Forall (fun fr => length fr = cc) frames ->
  Forall chunk_ok chunks -> (Z.of_nat (length (data_bytes narrow frames)) < two32)%Z -> Forall (read_ok D cc) reads ->
  exists f results, open_read (Some (wav_format cs cc rate ++ wav_chunks chunks ++ chunk data_id (data_bytes narrow frames))) before = Some (status_success, f) /\
    read_all D widen f reads = Some results /\ reads_expected D g cc frames reads results.
Proof.
  intros hb hc hF hch hl hr. eexists. pose proof (open_read_correct before cs cc rate chunks (data_bytes narrow frames) hl hch) as e. cbn zeta in e.
  destruct (opened_at before cs cc rate chunks frames hb hF) as (pre & ha). destruct (reads_correct reads _ pre cc frames 0 ha hc hr) as (results & e2 & h). exists results. splits; [exact e|exact e2|exact h].
Qed.
Lemma round_trip errno header junk cc rate blocks frames before reads : length header = 40 -> (forall k, length (junk k) = k) -> 0 < cc ->
  Forall2 (fun b fr => 0 < snd b /\ frames_of cc (fst b) (snd b) fr) blocks frames ->
  (36 + Z.of_nat (length (data_bytes narrow (concat frames))) < two32)%Z -> f_channels before = cc -> Forall (read_ok D cc) reads ->
  exists f0 f1 f2 results, open_write true errno None header cc rate = Some (status_success, Some f0) /\ write_all D narrow junk f0 blocks = Some (status_success, f1) /\
    open_read (Some (close_write None None f1)) before = Some (status_success, f2) /\
    read_all D widen f2 reads = Some results /\ reads_expected D g cc (concat frames) reads results.
Proof.
  intros hh hj hc hF hl hb hr. destruct (written_file D narrow errno header junk cc rate blocks frames hh hj hc hF hl) as (f0 & f1 & e0 & e1 & e2).
  destruct (read_file before (36 + Z.of_nat (length (data_bytes narrow (concat frames)))) cc rate [] (concat frames) reads hb hc) as (f2 & results & e3 & e4 & h); auto; try lia.
  - clear - hF. induction hF as [|b fr blocks frames [_ h] hF IH]; cbn [concat]; [constructor|]. apply Forall_app. split; [exact (frames_lengths _ _ _ _ _ h)|exact IH].
  - exists f0, f1, f2, results. splits; auto. rewrite e2. exact e3.
Qed.
End S.
Lemma status_undefined D widen malloc f n samples st out s : file_read D widen malloc f n samples = Some (st, out, s) -> st = None.
Proof. unfold file_read. destruct (file_read_status D widen malloc f n samples) as [[[? ?] ?]|]; cbn [bind]; [|discriminate]. intros [= <- _ _]. reflexivity. Qed.
Lemma open_read_data before cs cc rate size data :  (0 <= size < two32)%Z ->
  let bytes := wav_format cs cc rate ++ data_id ++ bytes_le 4 size ++ data in
  open_read (Some bytes) before = Some (status_success, {| f_stream := {| content := bytes; position := 44; at_end := false |}; f_data_size := f_data_size before; f_channels := f_channels before |}).
Proof.
  intros hs bytes. unfold open_read. cbn [bind].
  assert (hwl : length (wav_format cs cc rate) = 36) by (unfold wav_format; rewrite !app_length, !bytes_le_length; reflexivity).
  assert (hhl : length (data_id ++ bytes_le 4 size) = 8) by (rewrite app_length, bytes_le_length; reflexivity).
  assert (hb : bytes = (wav_format cs cc rate ++ data_id ++ bytes_le 4 size) ++ data) by (unfold bytes; rewrite <- !app_assoc; reflexivity).
  rewrite (fread_full 44 1 _ (wav_format cs cc rate ++ data_id ++ bytes_le 4 size) data); [|lia|cbn [position content skipn]; exact hb|rewrite app_length; lia].
  cbn [position content at_end Nat.eqb negb andb].
  destruct (header_checks cs cc rate _ hhl) as (c1 & c2 & c3 & c4 & c5 & c6 & c7). rewrite c1, c2, c3, c4, c5, c6, c7, !Z.eqb_refl. cbn [andb].
  replace (of_le (firstn 4 (data_id ++ bytes_le 4 size))) with wav_string_data by reflexivity. cbn [find_data]. rewrite Z.eqb_refl. cbn [bind fst snd].
  reflexivity.
Qed.
Lemma read_file_any D narrow widen : (forall x : D, (0 <= narrow x < two32)%Z) -> forall before cs cc rate size frames reads, (0 <= size < two32)%Z -> f_channels before = cc -> 0 < cc -> Forall (fun fr => length fr = cc) frames ->
  Forall (read_ok D cc) reads ->
  exists f results, open_read (Some (wav_format cs cc rate ++ data_id ++ bytes_le 4 size ++ data_bytes narrow frames)) before = Some (status_success, f) /\
    read_all D widen f reads = Some results /\ reads_expected D (fun x => widen (narrow x)) cc frames reads results.
Proof.
  intros hn before cs cc rate size frames reads hs hb hc hF hr. eexists. pose proof (open_read_data before cs cc rate size (data_bytes narrow frames) hs) as e. cbn zeta in e.
  assert (hwl : length (wav_format cs cc rate) = 36) by (unfold wav_format; rewrite !app_length, !bytes_le_length; reflexivity).
  match type of e with _ = Some (_, ?f0) => assert (ha : at_frame D narrow f0 (wav_format cs cc rate ++ data_id ++ bytes_le 4 size) cc frames 0) end.
  { unfold at_frame. cbn [f_channels f_stream content position]. split; [exact hb|]. split; [rewrite <- !app_assoc; reflexivity|]. split; [|split; [lia|exact hF]].
    rewrite !app_length, bytes_le_length, hwl. cbn [length data_id]. lia. }
  destruct (reads_correct D narrow widen hn reads _ _ cc frames 0 ha hc hr) as (results & e2 & h). exists results. split; [exact e|split; [exact e2|exact h]].
Qed.
Lemma read_trailing D narrow widen : (forall x : D, (0 <= narrow x < two32)%Z) -> forall before cc rate frames extra reads, f_channels before = cc -> 0 < cc -> Forall (fun fr => length fr = cc) frames -> Forall (fun fr => length fr = cc) extra ->
  (36 + Z.of_nat (length (data_bytes narrow frames)) < two32)%Z ->
  Forall (read_ok D cc) reads ->
  exists f results, open_read (Some (wav_file cc rate (data_bytes narrow frames) ++ data_bytes narrow extra)) before = Some (status_success, f) /\
    read_all D widen f reads = Some results /\ reads_expected D (fun x => widen (narrow x)) cc (frames ++ extra) reads results.
Proof.
  intros hn before cc rate frames extra reads hb hc hF hE hl hr.
  destruct (read_file_any D narrow widen hn before (36 + Z.of_nat (length (data_bytes narrow frames))) cc rate (Z.of_nat (length (data_bytes narrow frames))) (frames ++ extra) reads) as (f & results & e & h); auto; [lia|apply Forall_app; auto|].
  exists f, results. split; [|exact h]. rewrite <- e. rewrite data_bytes_app. unfold wav_file, chunk. rewrite <- !app_assoc. reflexivity.
Qed.
Lemma channel_count_wrong before cc rate data : (36 + Z.of_nat (length data) < two32)%Z -> f_channels before <> cc ->
  exists f, open_read (Some (wav_file cc rate data)) before = Some (status_success, f) /\ f_channels f <> cc.
Proof.
  intros hl hb. pose proof (open_read_data before (36 + Z.of_nat (length data)) cc rate (Z.of_nat (length data)) data ltac:(lia)) as e. cbn zeta in e.
  eexists. split; [exact e|]. cbn [f_channels]. exact hb.
Qed.
