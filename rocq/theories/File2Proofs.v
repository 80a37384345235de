From Verif Require Import Base FileModel FileSpec ArrProofs CombProofs FileProofs FileUseSpec.

Lemma fread_full size count s a b : 0 < size -> skipn (position s) (content s) = a ++ b -> length a = size * count ->
  fread size count s = (a, count, {| content := content s; position := position s + length a; at_end := at_end s |}).
Proof.
  intros hs e hl. unfold fread. rewrite e, app_length, hl. rewrite Nat.min_l by lia. rewrite (Nat.mul_comm size count), Nat.div_mul by lia.
  rewrite (proj2 (Nat.ltb_ge _ _)) by lia. rewrite orb_false_r. rewrite firstn_app. replace (size * count - length a) with 0 by lia. rewrite firstn_all2 by lia. cbn [firstn]. rewrite app_nil_r. reflexivity.
Qed.
Lemma fread_position size count s : position (snd (fread size count s)) = position s + Nat.min (size * count) (length (content s) - position s) /\
  content (snd (fread size count s)) = content s.
Proof. unfold fread. cbn. rewrite skipn_length. auto. Qed.
Lemma fread_one size s : 0 < size -> snd (fst (fread size 1 s)) <> 0 -> position s + size <= length (content s) /\ position (snd (fread size 1 s)) = position s + size.
Proof.
  intros hs. unfold fread. cbn. rewrite skipn_length, Nat.mul_1_r. intros h.
  destruct (Nat.le_gt_cases (position s + size) (length (content s))); [rewrite Nat.min_l by lia; lia|].
  exfalso. apply h. apply Nat.div_small. lia.
Qed.

(** ** opening *)
Lemma of_le_inj a b : length a = length b -> Forall (fun x => 0 <= x < 256)%Z a -> Forall (fun x => 0 <= x < 256)%Z b -> of_le a = of_le b -> a = b.
Proof.
  revert b. induction a as [|x a IH]; intros [|y b] hl ha hb; try discriminate; [reflexivity|]. inversion ha; subst. inversion hb; subst. cbn [of_le fold_right].
  fold (of_le a) (of_le b). intros e. assert (x = y /\ of_le a = of_le b) as [-> e2] by lia. f_equal. apply IH; auto.
Qed.
Lemma skipn_exact2 {A} (a b : list A) n : n = length a -> skipn n (a ++ b) = b.
Proof. intros ->. rewrite skipn_app, Nat.sub_diag, skipn_all. reflexivity. Qed.
Lemma find_data_chunks chunks : forall fuel pre id payload s data, length chunks < fuel ->
  Forall (fun c => length (fst c) = 4 /\ Forall (fun x => 0 <= x < 256)%Z (fst c) /\ fst c <> data_id /\ (Z.of_nat (length (snd c)) < two32)%Z) ((id, payload) :: chunks) ->
  (Z.of_nat (length data) < two32)%Z ->
  content s = pre ++ payload ++ wav_chunks chunks ++ chunk data_id data -> position s = length pre ->
  find_data fuel (of_le id) (Z.of_nat (length payload)) s =
    Some (status_success, {| content := content s; position := length (content s) - length data; at_end := false |}).
Proof.
  induction chunks as [|[id2 payload2] chunks IH]; intros fuel pre id payload s data hfuel hF hd hc hp; (destruct fuel as [|fuel]; [cbn in hfuel; lia|]);
    inversion hF as [|? ? (l1 & l2 & l3 & l4) hF2]; subst; cbn [fst snd] in *; cbn [find_data];
    (destruct (Z.eqb_spec (of_le id) wav_string_data) as [e|_]; [exfalso; apply l3; apply of_le_inj; [exact l1|exact l2|repeat constructor; lia|exact e]|]); rewrite Nat2Z.id.
  - cbn [wav_chunks map concat app] in hc. unfold chunk in hc.
    rewrite (fread_full 4 1 _ data_id (bytes_le 4 (Z.of_nat (length data)) ++ data)); [|lia| |reflexivity].
    2: { cbn [seek position content]. rewrite hc, app_assoc. apply skipn_exact2. rewrite app_length. lia. }
    cbn [Nat.eqb seek position content at_end].
    rewrite (fread_full 4 1 _ (bytes_le 4 (Z.of_nat (length data))) data); [|lia| |apply bytes_le_length].
    2: { cbn [position content]. rewrite hc, !app_assoc. rewrite <- (app_assoc _ _ data). apply skipn_exact2. rewrite !app_length. cbn [length data_id]. lia. }
    cbn [Nat.eqb position content at_end].
    replace (of_le data_id) with wav_string_data by reflexivity. destruct fuel; cbn [find_data]; rewrite Z.eqb_refl; do 3 f_equal; rewrite hc, !app_length, bytes_le_length; cbn [length data_id]; lia.
  - cbn [wav_chunks map concat fst snd] in hc. fold (wav_chunks chunks) in hc. unfold chunk at 1 in hc. rewrite <- !app_assoc in hc.
    inversion hF2 as [|? ? (k1 & k2 & k3 & k4) hF3]; subst. cbn [fst snd] in *.
    rewrite (fread_full 4 1 _ id2 (bytes_le 4 (Z.of_nat (length payload2)) ++ payload2 ++ wav_chunks chunks ++ chunk data_id data)); [|lia| |lia].
    2: { cbn [seek position content]. rewrite hc, app_assoc. apply skipn_exact2. rewrite app_length. lia. }
    cbn [Nat.eqb seek position content at_end].
    rewrite (fread_full 4 1 _ (bytes_le 4 (Z.of_nat (length payload2))) (payload2 ++ wav_chunks chunks ++ chunk data_id data)); [|lia| |apply bytes_le_length].
    2: { cbn [position content]. rewrite hc. rewrite (app_assoc pre), (app_assoc (pre ++ payload)). apply skipn_exact2. rewrite !app_length. lia. }
    cbn [Nat.eqb position content at_end]. rewrite of_bytes4 by lia.
    rewrite (IH fuel (pre ++ payload ++ id2 ++ bytes_le 4 (Z.of_nat (length payload2))) id2 payload2 _ data).
    + cbn [content]. reflexivity.
    + cbn in hfuel. lia.
    + constructor; auto.
    + exact hd.
    + cbn [content]. rewrite hc, <- !app_assoc. reflexivity.
    + cbn [position]. rewrite hp, !app_length, bytes_le_length. lia.
Qed.
Lemma find_data_total fuel : forall id size s, length (content s) - position s < fuel -> find_data fuel id size s <> None.
Proof.
  induction fuel as [|fuel IH]; intros id size s hf; [lia|]. cbn [find_data]. destruct (id =? wav_string_data)%Z; [discriminate|].
  set (s1 := seek s (position s + Z.to_nat size)). destruct (fread 4 1 s1) as [[b1 n1] s2] eqn:e1. destruct (Nat.eqb_spec n1 0); [discriminate|].
  destruct (fread 4 1 s2) as [[b2 n2] s3] eqn:e2. destruct (Nat.eqb_spec n2 0); [discriminate|].
  pose proof (fread_one 4 s1 ltac:(lia)) as h1. rewrite e1 in h1. cbn [fst snd] in h1. specialize (h1 ltac:(assumption)).
  pose proof (fread_one 4 s2 ltac:(lia)) as h2. rewrite e2 in h2. cbn [fst snd] in h2. specialize (h2 ltac:(assumption)).
  pose proof (fread_position 4 1 s1) as k1. rewrite e1 in k1. cbn [snd] in k1. pose proof (fread_position 4 1 s2) as k2. rewrite e2 in k2. cbn [snd] in k2.
  destruct k1 as [_ k1], k2 as [_ k2]. apply IH. rewrite k2, k1 in *. unfold s1 in *. cbn [seek content position] in *. lia.
Qed.
Lemma open_read_total bytes before : open_read (Some bytes) before <> None.
Proof.
  unfold open_read. cbn [bind]. destruct (fread 44 1 _) as [[h n] s] eqn:e.
  destruct (_ && _ && _ && _); [|discriminate]. destruct (_ && _); [|discriminate].
  destruct (find_data _ _ _ s) eqn:ef; [discriminate|]. exfalso. revert ef. apply find_data_total.
  pose proof (fread_position 44 1 {| content := bytes; position := 0; at_end := false |}) as k. rewrite e in k. cbn [snd content] in k. destruct k as [_ ->]. lia.
Qed.

Definition opened (before : file) (bytes data : list Z) : file :=
  {| f_stream := {| content := bytes; position := length bytes - length data; at_end := false |}; f_data_size := f_data_size before; f_channels := f_channels before |}.
Lemma header_checks cs cc rate rest : length rest = 8 -> let h := wav_format cs cc rate ++ rest in
  of_le (firstn 4 h) = wav_string_riff /\ of_le (firstn 4 (skipn 8 h)) = wav_string_wav /\ of_le (firstn 4 (skipn 12 h)) = wav_string_fmt /\
  of_le (firstn 2 (skipn 20 h)) = 3%Z /\ of_le (firstn 2 (skipn 34 h)) = 32%Z /\ firstn 4 (skipn 36 h) = firstn 4 rest /\ firstn 4 (skipn 40 h) = skipn 4 rest.
Proof.
  intros hl. do 8 (destruct rest as [|? rest]; [discriminate|]). destruct rest; [|discriminate]. unfold wav_format. cbn -[Z.modulo Z.div Z.mul Z.of_nat Z.add]. splits; reflexivity.
Qed.
Lemma open_read_correct before cs cc rate chunks data : (Z.of_nat (length data) < two32)%Z ->
  Forall (fun c => length (fst c) = 4 /\ Forall (fun x => 0 <= x < 256)%Z (fst c) /\ fst c <> data_id /\ (Z.of_nat (length (snd c)) < two32)%Z) chunks ->
  let bytes := wav_format cs cc rate ++ wav_chunks chunks ++ chunk data_id data in
  open_read (Some bytes) before = Some (status_success, opened before bytes data).
Proof.
  intros hd hF bytes. unfold open_read. cbn [bind].
  assert (hh : exists id payload rest, bytes = (wav_format cs cc rate ++ id ++ bytes_le 4 (Z.of_nat (length payload))) ++ rest /\ length id = 4 /\ (Z.of_nat (length payload) < two32)%Z /\
    ((chunks = [] /\ id = data_id /\ payload = data /\ rest = data) \/ (exists cs', chunks = (id, payload) :: cs' /\ rest = payload ++ wav_chunks cs' ++ chunk data_id data))).
  { destruct chunks as [|[id payload] cs'].
    - exists data_id, data, data. split; [unfold bytes, chunk; cbn [wav_chunks map concat app]; rewrite <- !app_assoc; reflexivity|]. splits; auto.
    - inversion hF as [|? ? (l1 & l2 & l3 & l4) hF2]; subst. exists id, payload, (payload ++ wav_chunks cs' ++ chunk data_id data).
      split; [unfold bytes; cbn [wav_chunks map concat fst snd]; unfold chunk at 1; rewrite <- !app_assoc; reflexivity|].
      split; [exact l1|]. split; [exact l4|]. right. exists cs'. auto. }
  destruct hh as (id & payload & rest & hb & hid & hps & hcase).
  assert (hwl : length (wav_format cs cc rate) = 36) by (unfold wav_format; rewrite !app_length, !bytes_le_length; reflexivity).
  assert (hhl : length (id ++ bytes_le 4 (Z.of_nat (length payload))) = 8) by (rewrite app_length, bytes_le_length; lia).
  rewrite (fread_full 44 1 _ (wav_format cs cc rate ++ id ++ bytes_le 4 (Z.of_nat (length payload))) rest); [|lia|cbn [position content skipn]; exact hb|rewrite app_length; lia].
  cbn [position content at_end Nat.eqb negb andb].
  destruct (header_checks cs cc rate _ hhl) as (c1 & c2 & c3 & c4 & c5 & c6 & c7). rewrite c1, c2, c3, c4, c5, c6, c7, !Z.eqb_refl. cbn [andb].
  rewrite (skipn_exact2 id _ 4) by lia. rewrite firstn_app. replace (4 - length id) with 0 by lia. rewrite firstn_O, app_nil_r, firstn_all2 by lia. rewrite of_bytes4 by lia.
  destruct hcase as [(-> & -> & -> & ->)|(cs' & -> & hr)].
  - replace (of_le data_id) with wav_string_data by reflexivity. cbn [find_data]. rewrite Z.eqb_refl. cbn [bind fst snd]. unfold opened. do 4 f_equal.
    rewrite hb, !app_length, bytes_le_length, hwl. cbn [length data_id]. lia.
  - inversion hF as [|? ? hF1 hF2]; subst.
    rewrite (find_data_chunks cs' _ (wav_format cs cc rate ++ id ++ bytes_le 4 (Z.of_nat (length payload))) id payload _ data); auto.
    + cbn [content position]. rewrite hb, !app_length. cbn [length]. rewrite hid, bytes_le_length.
      assert (length cs' <= length (wav_chunks cs')).
      { clear. induction cs' as [|[a b] l IH]; [cbn; lia|]. cbn [wav_chunks map concat fst snd]. fold (wav_chunks l). unfold chunk. rewrite !app_length, bytes_le_length. cbn [length]. lia. }
      lia.
Qed.
(** the channel count is not set *)
Lemma open_read_channels bytes before st f : open_read bytes before = Some (st, f) -> f_channels f = f_channels before.
Proof.
  unfold open_read. destruct bytes; [|discriminate]. cbn [bind]. destruct (fread 44 1 _) as [[h n] s]. destruct (_ && _ && _ && _); [|intros [= <- <-]; reflexivity].
  destruct (_ && _); [|intros [= <- <-]; reflexivity]. destruct (find_data _ _ _ s); cbn [bind]; [|discriminate]. intros [= <- <-]. reflexivity.
Qed.

(** ** reading *)
Section S.
Variable D : Type.
Variable narrow : D -> Z.
Variable widen : Z -> D.
Hypothesis narrow_range : forall x, (0 <= narrow x < two32)%Z.

Lemma nth_bytes (L : list Z) : forall i x, nth_error L i = Some x -> firstn 4 (skipn (4 * i) (concat (map le32 L))) = le32 x.
Proof.
  induction L as [|y L IH]; intros i x h; [destruct i; discriminate|]. cbn [map concat]. destruct i as [|i]; cbn [nth_error] in h.
  - injection h as ->. reflexivity.
  - replace (4 * S i) with (4 + 4 * i) by lia. cbn [le32 app Nat.add skipn]. apply IH. exact h.
Qed.
Lemma file_data_eq (fl : list D) : map (fun i => widen (of_le (firstn 4 (skipn (4 * i) (concat (map le32 (map narrow fl))))))) (seq 0 (length fl)) = map (fun x => widen (narrow x)) fl.
Proof.
  apply nth_error_ext. intros i. rewrite !nth_error_map. destruct (nth_error fl i) as [x|] eqn:e.
  - assert (hi : i < length fl) by (eapply nth_error_lt; eassumption). replace (nth_error (seq 0 (length fl)) i) with (Some i).
    2: { symmetry. rewrite (nth_error_nth' _ 0) by (rewrite seq_length; exact hi). rewrite seq_nth by exact hi. reflexivity. }
    cbn [option_map]. rewrite (nth_bytes _ i (narrow x)) by (rewrite nth_error_map, e; reflexivity). rewrite le32_bytes, of_bytes4 by apply narrow_range. reflexivity.
  - apply nth_error_None in e. rewrite (proj2 (nth_error_None (seq 0 (length fl)) i)) by (rewrite seq_length; exact e). reflexivity.
Qed.

Lemma pair_inj a b c x y : a * c + x = b * c + y -> x < c -> y < c -> a = b /\ x = y.
Proof.
  intros e hx hy. assert (a = b).
  { assert (c * a + x = c * b + y) as e2 by lia. rewrite (Nat.div_unique (c * a + x) c a x hx eq_refl). rewrite e2. symmetry. apply (Nat.div_unique _ c b y); auto. }
  subst. lia.
Qed.
(** samples after [p] values have been stored *)
Definition stored (cc : nat) (fd : list D) (m p : nat) (samples samples' : list (list D)) : Prop :=
  length samples' = length samples /\
  forall j c, nth_error samples j = Some c -> exists c', nth_error samples' j = Some c' /\ length c' = length c /\
    forall i, nth_error c' i = if (j <? cc) && (i <? m) && (i * cc + j <? p) then nth_error fd (i * cc + j) else nth_error c i.
Lemma deinterleave cc m fd samples : length fd = m * cc -> cc <= length samples ->
  (forall j c, j < cc -> nth_error samples j = Some c -> m <= length c) ->
  exists samples', for_ 0 m (fun i samples =>
      for_ 0 cc (fun j samples =>
        x <- aget fd (i * cc + j) ;;
        c <- aget samples j ;; c <- aset c i x ;; aset samples j c) samples) samples = Some samples' /\ stored cc fd m (m * cc) samples samples'.
Proof.
  intros hl hc hs. apply (for_inv (fun i a => stored cc fd m (i * cc) samples a)); [lia| |].
  - split; [reflexivity|]. intros j c e. exists c. splits; auto. intros i. rewrite (proj2 (Nat.ltb_ge (i * cc + j) (0 * cc))) by lia. rewrite andb_false_r. reflexivity.
  - intros i a hi ha. replace (S i * cc) with (i * cc + cc) by lia. apply (for_inv (fun j a => stored cc fd m (i * cc + j) samples a)); [lia|rewrite Nat.add_0_r; exact ha|].
    intros j b hj (b1 & b2). assert (hidx : i * cc + j < m * cc) by nia.
    destruct (nth_error_some fd (i * cc + j)) as [x ex]; [lia|]. destruct (nth_error_some samples j) as [c0 ec0]; [lia|].
    destruct (b2 j c0 ec0) as (c & ec & lc & hcn). unfold aget. rewrite ex. cbn [bind]. rewrite ec. cbn [bind].
    destruct (aset_some c i x) as [c' ec']; [rewrite lc; pose proof (hs j c0 ltac:(lia) ec0); lia|]. rewrite ec'. cbn [bind].
    destruct (aset_some b j c') as [b' eb']; [rewrite b1; lia|]. exists b'. split; [exact eb'|]. split; [rewrite (aset_length _ _ _ _ eb'); exact b1|].
    intros j' c1 e1. rewrite (aset_get _ _ _ _ j' eb'). destruct (Nat.eqb_spec j' j) as [->|hne].
    + exists c'. rewrite ec0 in e1. injection e1 as <-. splits; [reflexivity|rewrite (aset_length _ _ _ _ ec'); exact lc|]. intros i'. rewrite (aset_get _ _ _ _ i' ec').
      destruct (Nat.eqb_spec i' i) as [->|hi'].
      * rewrite (proj2 (Nat.ltb_lt j cc)), (proj2 (Nat.ltb_lt i m)), (proj2 (Nat.ltb_lt (i * cc + j) (i * cc + S j))) by lia. cbn [andb]. symmetry. exact ex.
      * rewrite hcn. destruct (Nat.ltb_spec j cc); [|lia]. destruct (Nat.ltb_spec i' m); [|reflexivity]. cbn [andb].
        destruct (Nat.ltb_spec (i' * cc + j) (i * cc + j)), (Nat.ltb_spec (i' * cc + j) (i * cc + S j)); try reflexivity; exfalso; [lia|].
        destruct (pair_inj i' i cc j j); lia.
    + destruct (b2 j' c1 e1) as (c2 & e2 & l2 & h2). exists c2. splits; auto. intros i'. rewrite h2. destruct (Nat.ltb_spec j' cc); [|reflexivity]. cbn [andb]. destruct (Nat.ltb_spec i' m); [|reflexivity]. cbn [andb].
      destruct (Nat.ltb_spec (i' * cc + j') (i * cc + j)), (Nat.ltb_spec (i' * cc + j') (i * cc + S j)); try reflexivity; exfalso; [lia|].
      destruct (pair_inj i' i cc j' j); lia.
Qed.

(** stream at frame [k] *)
Definition at_frame (f : file) (pre : list Z) (cc : nat) (frames : list (list D)) (k : nat) : Prop :=
  f_channels f = cc /\ content (f_stream f) = pre ++ data_bytes narrow frames /\ position (f_stream f) = length pre + 4 * cc * k /\ k <= length frames /\
  Forall (fun fr => length fr = cc) frames.

Lemma firstn_Forall2 {A} (P : A -> Prop) n l : Forall P l -> Forall P (firstn n l).
Proof. intros h. revert n. induction h; intros [|n]; cbn; constructor; auto. Qed.
Lemma skipn_Forall {A} (P : A -> Prop) l : Forall P l -> forall n, Forall P (skipn n l).
Proof. induction 1; intros [|n]; cbn; auto. Qed.

Lemma read_correct f pre cc frames k n samples : at_frame f pre cc frames k -> 0 < cc -> cc <= length samples ->
  (forall j c, j < cc -> nth_error samples j = Some c -> n <= length c) -> (4 * Z.of_nat cc * Z.of_nat n < two32)%Z ->
  let m := Nat.min n (length frames - k) in
  exists samples' s, file_read_status D widen true f n samples = Some (if (0 <? n) && (m =? 0) then id_file_eof else status_success, samples', s) /\
    (forall f', f_stream f' = s -> f_channels f' = cc -> at_frame f' pre cc frames (k + m)) /\
    length samples' = length samples /\
    forall j c, nth_error samples j = Some c -> exists c', nth_error samples' j = Some c' /\ length c' = length c /\
      forall i, nth_error c' i = if (j <? cc) && (i <? m) then option_map (fun x => widen (narrow x)) (match nth_error frames (k + i) with Some fr => nth_error fr j | None => None end) else nth_error c i.
Proof.
  intros (h1 & h2 & h3 & h4 & h5) hc hcl hs hb m. unfold file_read_status. rewrite h1.
  assert (hic : Z.to_nat (u32 (Z.of_nat cc * Z.of_nat n)) = cc * n) by (rewrite u32_small by nia; lia). rewrite hic.
  cbn [orb need bind]. rewrite u32_small by nia. rewrite (proj2 (Nat.leb_le _ _)) by lia. cbn [need bind].
  set (rest := skipn k frames). set (got := firstn m rest). assert (hrl : length rest = length frames - k) by apply skipn_length.
  assert (hgl : length got = m) by (unfold got; rewrite firstn_length; lia).
  assert (hsk : skipn (position (f_stream f)) (content (f_stream f)) = data_bytes narrow rest).
  { rewrite h2, h3. rewrite skipn_app, skipn_all2 by lia. cbn [app]. replace (length pre + 4 * cc * k - length pre) with (4 * cc * k) by lia.
    rewrite <- (firstn_skipn k frames) at 1. rewrite data_bytes_app. apply skipn_exact2.
    rewrite (data_bytes_length D narrow _ cc) by (apply firstn_Forall2; exact h5). rewrite firstn_length. nia. }
  assert (hgF : Forall (fun fr => length fr = cc) got) by (apply firstn_Forall2, skipn_Forall; exact h5).
  assert (hdl : length (data_bytes narrow rest) = 4 * cc * (length frames - k)) by (rewrite (data_bytes_length D narrow _ cc) by (apply skipn_Forall; exact h5); rewrite hrl; reflexivity).
  assert (hgd : length (data_bytes narrow got) = 4 * cc * m) by (rewrite (data_bytes_length D narrow _ cc) by exact hgF; rewrite hgl; reflexivity).
  assert (hfr : fread 4 (cc * n) (f_stream f) = (data_bytes narrow got, cc * m,
    {| content := content (f_stream f); position := position (f_stream f) + 4 * cc * m; at_end := at_end (f_stream f) || (m <? n) |})).
  { unfold fread. rewrite hsk, hdl. assert (hmin : Nat.min (4 * (cc * n)) (4 * cc * (length frames - k)) = (cc * m) * 4).
    { unfold m. rewrite <- Nat.mul_min_distr_l. nia. }
    rewrite hmin. rewrite Nat.div_mul by lia. replace (cc * m * 4) with (4 * cc * m) by lia. f_equal; [f_equal|f_equal].
    - unfold got. rewrite <- (firstn_skipn m rest) at 1. rewrite data_bytes_app, firstn_app. fold got. rewrite firstn_all2 by lia. replace (4 * (cc * m) - length (data_bytes narrow got)) with 0 by lia. cbn [firstn]. apply app_nil_r.
    - f_equal. destruct (Nat.ltb_spec m n), (Nat.ltb_spec (4 * cc * m) (4 * (cc * n))); try reflexivity; exfalso; nia. }
  rewrite hfr. cbn [at_end].
  assert (hat : forall f', f_stream f' = {| content := content (f_stream f); position := position (f_stream f) + 4 * cc * m; at_end := at_end (f_stream f) || (m <? n) |} -> f_channels f' = cc ->
    at_frame f' pre cc frames (k + m)).
  { intros f' e1 e2. unfold at_frame. rewrite e1. cbn [content position]. splits; auto; [rewrite h3; nia|unfold m; lia]. }
  assert (heq : (cc * n =? cc * m) = negb (m <? n)).
  { destruct (Nat.ltb_spec m n), (Nat.eqb_spec (cc * n) (cc * m)); try reflexivity; exfalso; nia. }
  assert (hz : (cc * m =? 0) = (m =? 0)) by (destruct (Nat.eqb_spec m 0), (Nat.eqb_spec (cc * m) 0); try reflexivity; exfalso; nia).
  rewrite heq, hz, negb_involutive. replace ((m <? n) && negb (at_end (f_stream f) || (m <? n))) with false by (destruct (m <? n), (at_end (f_stream f)); reflexivity).
  assert (hflat : data_bytes narrow got = concat (map le32 (map narrow (concat got)))) by apply data_bytes_flat.
  assert (hcg : length (concat got) = cc * m) by (rewrite (concat_length_const got cc hgF); lia).
  destruct ((m <? n) && (m =? 0)) eqn:hcase.
  - apply andb_prop in hcase as [k1 k2]. apply Nat.ltb_lt in k1. apply Nat.eqb_eq in k2. exists samples. eexists. rewrite (proj2 (Nat.ltb_lt 0 n)), (proj2 (Nat.eqb_eq m 0)) by lia. cbn [andb].
    splits; [reflexivity|exact hat|reflexivity|]. intros j c e. exists c. splits; auto. intros i. rewrite (proj2 (Nat.ltb_ge i m)) by lia. rewrite andb_false_r. reflexivity.
  - rewrite (proj2 (Nat.eqb_neq cc 0)) by lia. cbn [negb need bind]. replace (cc * m / cc) with m by (rewrite Nat.mul_comm, Nat.div_mul; lia).
    rewrite hflat. replace (seq 0 (cc * m)) with (seq 0 (length (concat got))) by (rewrite hcg; reflexivity). rewrite file_data_eq.
    destruct (deinterleave cc m (map (fun x => widen (narrow x)) (concat got)) samples) as (samples' & e & st1 & st2); [rewrite map_length; lia|exact hcl|intros j c hj ej; pose proof (hs j c hj ej); unfold m; lia|].
    rewrite e. cbn [bind]. exists samples'. eexists.
    replace (if (0 <? n) && (m =? 0) then id_file_eof else status_success) with status_success.
    2: { destruct (Nat.eqb_spec m 0), (Nat.ltb_spec 0 n), (Nat.ltb_spec m n); cbn in hcase |- *; try reflexivity; try discriminate; lia. }
    splits; [reflexivity|exact hat|exact st1|]. intros j c ec. destruct (st2 j c ec) as (c' & e1 & e2 & e3). exists c'. splits; auto. intros i. rewrite e3.
    destruct (Nat.ltb_spec j cc); [|reflexivity]. destruct (Nat.ltb_spec i m); [|reflexivity]. cbn [andb]. rewrite (proj2 (Nat.ltb_lt _ _)) by nia.
    rewrite nth_error_map, (concat_nth got cc hgF) by assumption. unfold got, rest. rewrite nth_error_firstn by lia. rewrite nth_error_skipn. reflexivity.
Qed.
End S.
