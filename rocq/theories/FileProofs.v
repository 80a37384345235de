From Verif Require Import Base FileModel FileSpec ArrProofs CombProofs FileUseSpec.

(** ** bytes *)
Lemma bytes_le_length n : forall x, length (bytes_le n x) = n.
Proof. induction n; intros; cbn; auto. Qed.
Lemma le32_bytes x : le32 x = bytes_le 4 x.
Proof. unfold le32. cbn [bytes_le]. rewrite !Z.div_div by lia. reflexivity. Qed.
Lemma le16_bytes x : le16 x = bytes_le 2 x.
Proof. reflexivity. Qed.
Lemma bytes_le_mod n : forall x y, (x mod 256 ^ Z.of_nat n = y mod 256 ^ Z.of_nat n)%Z -> bytes_le n x = bytes_le n y.
Proof.
  induction n; intros x y h; [reflexivity|]. cbn [bytes_le]. rewrite Nat2Z.inj_succ, Z.pow_succ_r in h by lia.
  assert (hp : (0 < 256 ^ Z.of_nat n)%Z) by (apply Z.pow_pos_nonneg; lia).
  rewrite !Z.rem_mul_r in h by lia. pose proof (Z.mod_pos_bound x 256 ltac:(lia)). pose proof (Z.mod_pos_bound y 256 ltac:(lia)).
  assert (x mod 256 = y mod 256 /\ (x / 256) mod 256 ^ Z.of_nat n = (y / 256) mod 256 ^ Z.of_nat n)%Z as [e1 e2] by lia.
  f_equal; auto.
Qed.
Lemma bytes_le_u32 x : bytes_le 4 (u32 x) = bytes_le 4 x.
Proof. apply bytes_le_mod. unfold u32, two32. change (256 ^ Z.of_nat 4)%Z with 4294967296%Z. apply Z.mod_mod. lia. Qed.
Lemma of_bytes n : forall x, of_le (bytes_le n x) = (x mod 256 ^ Z.of_nat n)%Z.
Proof.
  induction n; intros x; [cbn; rewrite Z.mod_1_r; reflexivity|]. cbn [bytes_le of_le fold_right]. fold (of_le (bytes_le n (x / 256))). rewrite IHn.
  rewrite Nat2Z.inj_succ, Z.pow_succ_r by lia. rewrite Z.rem_mul_r; [reflexivity|lia|]. apply Z.pow_pos_nonneg; lia.
Qed.
Lemma of_bytes4 x : (0 <= x < two32)%Z -> of_le (bytes_le 4 x) = x.
Proof. intros h. rewrite of_bytes. apply Z.mod_small. exact h. Qed.
Lemma concat_bytes_length (l : list Z) : length (concat (map le32 l)) = 4 * length l.
Proof. induction l; cbn [map concat]; [reflexivity|]. rewrite app_length, IHl. cbn [length le32]. lia. Qed.

(** ** streams *)
Lemma put_gap s b g : position s = length (content s) + g ->
  put s b = {| content := content s ++ repeat 0%Z g ++ b; position := position s + length b; at_end := false |}.
Proof.
  intros h. unfold put. rewrite h. replace (length (content s) + g - length (content s)) with g by lia.
  rewrite firstn_all2 by (rewrite app_length, repeat_length; lia). rewrite skipn_all2 by lia. rewrite app_nil_r, <- app_assoc. reflexivity.
Qed.
Lemma put_end s b : position s = length (content s) -> put s b = {| content := content s ++ b; position := position s + length b; at_end := false |}.
Proof. intros h. rewrite (put_gap s b 0) by lia. reflexivity. Qed.
Lemma put_over s a b c d : content s = a ++ b ++ c -> position s = length a -> length d = length b ->
  content (put s d) = a ++ d ++ c.
Proof.
  intros hc hp hd. unfold put. cbn [content]. rewrite hp, hc, hd. rewrite !app_length.
  replace (length a - (length a + (length b + length c))) with 0 by lia. cbn [repeat]. rewrite app_nil_r.
  rewrite firstn_app, Nat.sub_diag, firstn_all. cbn [firstn]. rewrite app_nil_r. f_equal. f_equal.
  rewrite (app_assoc a b c), skipn_app, app_length, Nat.sub_diag. rewrite skipn_all2 by (rewrite app_length; lia). reflexivity.
Qed.
Lemma fwrite_ok b s : b <> [] -> fwrite None b s = (true, put s b).
Proof. destruct b; [intros h; elim h; reflexivity|reflexivity]. Qed.

(** ** writing *)
Definition format_with (size_bytes : list Z) (channels : nat) (rate : Z) : list Z :=
  riff ++ size_bytes ++ wave ++ fmt ++ bytes_le 4 16 ++ bytes_le 2 3 ++ bytes_le 2 (Z.of_nat channels) ++ bytes_le 4 rate ++
  bytes_le 4 (rate * Z.of_nat channels * 4) ++ bytes_le 2 (Z.of_nat channels * 4) ++ bytes_le 2 32.
Lemma open_write_correct errno junk cc rate : length junk = 40 ->
  exists f w, open_write true errno None junk cc rate = Some (status_success, Some f) /\ length w = 4 /\
    content (f_stream f) = format_with w cc rate ++ data_id /\ position (f_stream f) = 44 /\ f_data_size f = 0%Z /\ f_channels f = cc.
Proof.
  intros hj. unfold open_write. rewrite hj. cbn [Nat.eqb need bind]. cbv zeta. rewrite !le32_bytes, !le16_bytes.
  replace (bytes_le 4 (u32 (u32 (rate * Z.of_nat cc) * 4))) with (bytes_le 4 (rate * Z.of_nat cc * 4)).
  2: { symmetry. rewrite bytes_le_u32. apply bytes_le_mod. unfold u32, two32. change (256 ^ Z.of_nat 4)%Z with 4294967296%Z. rewrite Z.mul_mod_idemp_l by lia. reflexivity. }
  change (bytes_le 4 wav_string_riff) with riff. change (bytes_le 4 wav_string_wav) with wave. change (bytes_le 4 wav_string_fmt) with fmt.
  change (bytes_le 4 wav_string_data) with data_id.
  do 40 (destruct junk as [|? junk]; [discriminate|]). destruct junk; [|discriminate].
  unfold format_with, riff, wave, fmt, data_id. lazy -[Z.modulo Z.div Z.mul Z.of_nat].
  eexists. exists [z3; z4; z5; z6]. split; [reflexivity|]. splits; reflexivity.
Qed.
Lemma open_write_failure opened errno fault junk cc rate : length junk = 40 -> opened = false \/ fault <> None ->
  open_write opened errno fault junk cc rate = Some (if opened then id_file_write else errno, None).
Proof.
  intros hj h. unfold open_write. rewrite hj. cbn [Nat.eqb need bind]. cbv zeta.
  repeat match goal with |- context [splice ?a ?o ?x] =>
    let E := fresh "E" in destruct (splice a o x) eqn:E; cbn [bind];
    [apply splice_length in E|exfalso; destruct (splice_some a o x) as [? E']; [cbn [length le32 le16]; lia|rewrite E in E'; discriminate]] end.
  destruct opened; [|reflexivity]. destruct h as [h|h]; [discriminate|]. destruct fault; [|elim h; reflexivity].
  destruct l9; [cbn in *; lia|]. reflexivity.
Qed.

Section S.
Variable D : Type.
Variable narrow : D -> Z.

Lemma frames_nil cc (samples : list (list D)) frames : frames_of cc samples 0 frames -> frames = [].
Proof. intros (h & _). destruct frames; [reflexivity|discriminate]. Qed.
Lemma data_bytes_app (a b : list (list D)) : data_bytes narrow (a ++ b) = data_bytes narrow a ++ data_bytes narrow b.
Proof. unfold data_bytes. rewrite map_app, concat_app. reflexivity. Qed.
Lemma concat_length_const {A} (l : list (list A)) k : Forall (fun x => length x = k) l -> length (concat l) = length l * k.
Proof. induction 1; cbn; [reflexivity|]. rewrite app_length. lia. Qed.
Lemma data_bytes_flat frames : data_bytes narrow frames = concat (map le32 (map narrow (concat frames))).
Proof.
  unfold data_bytes. induction frames as [|fr l IH]; [reflexivity|]. cbn [map concat]. rewrite IH, !map_app, concat_app. f_equal.
  induction fr; [reflexivity|]. cbn [map concat]. rewrite le32_bytes. f_equal. exact IHfr.
Qed.
Lemma data_bytes_length frames cc : Forall (fun fr => length fr = cc) frames -> length (data_bytes narrow frames) = 4 * cc * length frames.
Proof. intros h. rewrite data_bytes_flat, concat_bytes_length, map_length, (concat_length_const _ cc h). lia. Qed.
Lemma frames_lengths cc samples n (frames : list (list D)) : frames_of cc samples n frames -> Forall (fun fr => length fr = cc) frames.
Proof.
  intros (hl & h). apply Forall_forall. intros fr hin. apply In_nth_error in hin as [i e]. destruct (h i) as (fr' & e' & hf & _); [rewrite <- hl; eapply nth_error_lt; eassumption|].
  congruence.
Qed.
Lemma concat_nth {A} (l : list (list A)) k : Forall (fun x => length x = k) l -> forall i j, j < k -> nth_error (concat l) (i * k + j) = match nth_error l i with Some x => nth_error x j | None => None end.
Proof.
  induction 1 as [|x l hx _ IH]; intros i j hj.
  - cbn [concat]. rewrite (proj2 (nth_error_None [] (i * k + j))) by (cbn; lia). destruct i; reflexivity.
  - cbn [concat]. destruct i as [|i]; cbn [nth_error].
    + rewrite nth_error_app1 by lia. reflexivity.
    + rewrite nth_error_app2 by lia. replace (S i * k + j - length x) with (i * k + j) by lia. apply IH. exact hj.
Qed.
Lemma frames_nth cc samples n (frames : list (list D)) i j : frames_of cc samples n frames -> i < n -> j < cc ->
  exists c x, nth_error samples j = Some c /\ nth_error c i = Some x /\ nth_error (concat frames) (i * cc + j) = Some x.
Proof.
  intros hf hi hj. rewrite (concat_nth frames cc (frames_lengths _ _ _ _ hf)) by exact hj. destruct hf as (hl & h). destruct (h i hi) as (fr & e & hfr & hc). rewrite e.
  destruct (hc j hj) as (c & x & h1 & h2 & h3). exists c, x. auto.
Qed.

Lemma interleave_correct cc n samples (frames : list (list D)) fd : frames_of cc samples n frames -> (Z.of_nat cc * Z.of_nat n < two32)%Z -> length fd = cc * n ->
  for_ 0 n (fun i fd =>
    for_ 0 cc (fun j fd =>
      c <- aget samples j ;; x <- aget c i ;;
      aset fd (Z.to_nat (u32 (u32 (Z.of_nat i * Z.of_nat cc) + Z.of_nat j))) (narrow x)) fd) fd = Some (map narrow (concat frames)).
Proof.
  intros hf hb hl.
  pose (P := fun k (a : list Z) => length a = cc * n /\ forall p, p < k -> nth_error a p = nth_error (map narrow (concat frames)) p).
  assert (hlen : length (map narrow (concat frames)) = cc * n).
  { rewrite map_length, (concat_length_const _ cc (frames_lengths _ _ _ _ hf)). destruct hf as [-> _]. lia. }
  destruct (for_inv (fun i a => P (i * cc) a) (fun i fd =>
    for_ 0 cc (fun j fd =>
      c <- aget samples j ;; x <- aget c i ;;
      aset fd (Z.to_nat (u32 (u32 (Z.of_nat i * Z.of_nat cc) + Z.of_nat j))) (narrow x)) fd) 0 n fd) as (a & e & h1 & h2); [lia|split; [exact hl|intros; lia]| |].
  - intros i a hi hP. destruct (for_inv (fun j b => P (i * cc + j) b) (fun j fd =>
      c <- aget samples j ;; x <- aget c i ;;
      aset fd (Z.to_nat (u32 (u32 (Z.of_nat i * Z.of_nat cc) + Z.of_nat j))) (narrow x)) 0 cc a) as (b & e & hb2); [lia|rewrite Nat.add_0_r; exact hP| |].
    + intros j b hj (l1 & l2). destruct (frames_nth cc samples n frames i j hf ltac:(lia) ltac:(lia)) as (c & x & e1 & e2 & e3).
      unfold aget. rewrite e1. cbn [bind]. rewrite e2. cbn [bind].
      assert (hidx : i * cc + j < cc * n) by nia.
      rewrite (u32_small (Z.of_nat i * Z.of_nat cc)) by nia. rewrite u32_small by nia.
      replace (Z.to_nat (Z.of_nat i * Z.of_nat cc + Z.of_nat j)) with (i * cc + j) by lia.
      destruct (aset_some b (i * cc + j) (narrow x)) as [b' eb]; [lia|]. exists b'. split; [exact eb|]. split; [rewrite (aset_length _ _ _ _ eb); exact l1|].
      intros p hp. rewrite (aset_get _ _ _ _ p eb). destruct (Nat.eqb_spec p (i * cc + j)) as [->|].
      * rewrite nth_error_map, e3. reflexivity.
      * apply l2. lia.
    + exists b. split; [exact e|]. replace (S i * cc) with (i * cc + cc) by lia. exact hb2.
  - rewrite e. f_equal. apply nth_error_ext. intros p. destruct (Nat.lt_ge_cases p (cc * n)); [apply h2; lia|].
    rewrite (proj2 (nth_error_None a p)), (proj2 (nth_error_None _ p)) by lia. reflexivity.
Qed.

Lemma u32_size cc n : (4 * Z.of_nat cc * Z.of_nat n < two32)%Z -> Z.to_nat (u32 (u32 (Z.of_nat cc * Z.of_nat n) * 4)) = 4 * (cc * n).
Proof. intros h. assert (0 <= Z.of_nat cc * Z.of_nat n)%Z by lia. rewrite (u32_small (Z.of_nat cc * Z.of_nat n)) by lia. rewrite u32_small by lia. lia. Qed.

Lemma write_exact fault junk f samples n frames : (forall k, length (junk k) = k) -> frames_of (f_channels f) samples n frames ->
  (4 * Z.of_nat (f_channels f) * Z.of_nat n < two32)%Z ->
  file_write D narrow true fault junk f samples n =
    let '(ok, s) := fwrite fault (data_bytes narrow frames) (f_stream f) in
    if ok then Some (status_success, {| f_stream := s; f_data_size := u32 (f_data_size f + Z.of_nat (length (data_bytes narrow frames))); f_channels := f_channels f |})
    else Some (id_file_write, {| f_stream := s; f_data_size := f_data_size f; f_channels := f_channels f |}).
Proof.
  intros hj hf hb. unfold file_write. cbn [orb need bind]. rewrite (u32_size _ _ hb). rewrite Nat.mul_comm, Nat.div_mul by lia.
  rewrite (interleave_correct (f_channels f) n samples frames _ hf) by (try lia; apply hj). cbn [bind].
  rewrite <- data_bytes_flat. rewrite (data_bytes_length frames (f_channels f)) by (eapply frames_lengths; eassumption).
  replace (4 * f_channels f * length frames) with (f_channels f * n * 4) by (destruct hf as [-> _]; lia). reflexivity.
Qed.

(** file being written: everything so far *)
Definition writing (f : file) (cc : nat) (rate : Z) (data : list Z) : Prop :=
  f_channels f = cc /\ f_data_size f = Z.of_nat (length data) /\ position (f_stream f) = 44 + length data /\
  exists w, length w = 4 /\
    ((data = [] /\ content (f_stream f) = format_with w cc rate ++ data_id) \/
     content (f_stream f) = format_with w cc rate ++ data_id ++ [0; 0; 0; 0]%Z ++ data).
Lemma format_length w cc rate : length w = 4 -> length (format_with w cc rate) = 36.
Proof. intros h. unfold format_with. rewrite !app_length, h, !bytes_le_length. reflexivity. Qed.

Lemma write_writing junk f samples n frames cc rate data : (forall k, length (junk k) = k) -> writing f cc rate data -> frames_of cc samples n frames ->
  0 < cc -> 0 < n -> (Z.of_nat (length data) + 4 * Z.of_nat cc * Z.of_nat n < two32)%Z ->
  exists f', file_write D narrow true None junk f samples n = Some (status_success, f') /\ writing f' cc rate (data ++ data_bytes narrow frames).
Proof.
  intros hj (h1 & h2 & h3 & w & h4 & h5) hf hc hn hb. assert (hlen : length (data_bytes narrow frames) = 4 * cc * n).
  { rewrite (data_bytes_length frames cc (frames_lengths _ _ _ _ hf)). destruct hf as [-> _]. lia. }
  rewrite (write_exact None junk f samples n frames hj) by (rewrite h1; [exact hf || lia]).
  rewrite fwrite_ok by (intros e; rewrite e in hlen; cbn in hlen; nia). eexists. split; [reflexivity|].
  assert (hfl := format_length w cc rate h4).
  split; [exact h1|]. cbn [f_data_size f_stream]. split; [rewrite h2, app_length, u32_small by nia; lia|].
  destruct h5 as [[-> hcon]|hcon].
  - rewrite (put_gap _ _ 4) by (rewrite h3, hcon, app_length, hfl; reflexivity). cbn [content position]. split; [rewrite h3, app_length; cbn; lia|].
    exists w. split; [exact h4|]. right. rewrite hcon, <- !app_assoc. reflexivity.
  - rewrite put_end by (rewrite h3, hcon, !app_length, hfl; cbn; lia). cbn [content position]. split; [rewrite h3, app_length; lia|].
    exists w. split; [exact h4|]. right. rewrite hcon, <- !app_assoc. reflexivity.
Qed.

Lemma close_correct f cc rate data : writing f cc rate data -> (36 + Z.of_nat (length data) < two32)%Z ->
  close_write None None f = wav_file cc rate data.
Proof.
  intros (h1 & h2 & h3 & w & h4 & h5) hb. unfold close_write. rewrite !fwrite_ok by discriminate. cbn [snd]. rewrite h2, u32_small by lia. rewrite !le32_bytes.
  assert (hfl : forall w, length w = 4 -> length (format_with w cc rate) = 36) by (intros; apply format_length; assumption).
  assert (hw4 := bytes_le_length 4 (36 + Z.of_nat (length data))).
  set (b1 := bytes_le 4 (36 + Z.of_nat (length data))) in *.
  assert (e1 : forall rest, content (f_stream f) = format_with w cc rate ++ rest ->
    content (put (seek (f_stream f) 4) b1) = format_with b1 cc rate ++ rest).
  { intros rest e. unfold format_with in *. rewrite <- app_assoc in e. rewrite <- (app_assoc w) in e. rewrite <- app_assoc, <- (app_assoc b1).
    apply (put_over _ riff w); [exact e|reflexivity|lia]. }
  unfold wav_file, chunk. change (wav_format (36 + Z.of_nat (length data)) cc rate) with (format_with b1 cc rate).
  destruct h5 as [[-> hcon]|hcon].
  - specialize (e1 data_id hcon). rewrite (put_gap _ _ 0).
    + cbn [content seek]. rewrite e1. cbn [repeat app]. rewrite app_nil_r. rewrite <- app_assoc. reflexivity.
    + cbn [seek position content]. rewrite e1, app_length, hfl by exact hw4. reflexivity.
  - specialize (e1 (data_id ++ [0; 0; 0; 0]%Z ++ data) hcon).
    rewrite (put_over _ (format_with b1 cc rate ++ data_id) [0; 0; 0; 0]%Z data); cbn [seek content position].
    + rewrite <- app_assoc. reflexivity.
    + rewrite e1, <- app_assoc. reflexivity.
    + rewrite app_length, hfl by exact hw4. reflexivity.
    + apply bytes_le_length.
Qed.

(** a sequence of writes *)
Notation write_all := (write_all D narrow).
Lemma write_all_writing junk cc rate blocks : forall f data frames, (forall k, length (junk k) = k) -> writing f cc rate data -> 0 < cc ->
  Forall2 (fun b fr => 0 < snd b /\ frames_of cc (fst b) (snd b) fr) blocks frames ->
  (Z.of_nat (length data) + Z.of_nat (length (data_bytes narrow (concat frames))) < two32)%Z ->
  exists f', write_all junk f blocks = Some (status_success, f') /\ writing f' cc rate (data ++ data_bytes narrow (concat frames)).
Proof.
  induction blocks as [|[samples n] rest IH]; intros f data frames hj hw hc hF hb; inversion hF as [|? fr ? frs [hn hfr] hF2]; subst.
  - exists f. split; [reflexivity|]. cbn. rewrite app_nil_r. exact hw.
  - cbn [fst snd] in *. cbn [concat] in *. rewrite data_bytes_app in *. rewrite app_length in hb.
    assert (hlen : length (data_bytes narrow fr) = 4 * cc * n).
    { rewrite (data_bytes_length fr cc (frames_lengths _ _ _ _ hfr)). destruct hfr as [-> _]. lia. }
    destruct (write_writing junk f samples n fr cc rate data hj hw hfr hc hn) as (f1 & e1 & w1); [lia|].
    cbn [write_all]. rewrite e1. cbn [bind Z.eqb status_success].
    destruct (IH f1 (data ++ data_bytes narrow fr) frs hj w1 hc hF2) as (f2 & e2 & w2); [rewrite app_length; lia|].
    exists f2. split; [exact e2|]. rewrite app_assoc. exact w2.
Qed.
Lemma open_writing f cc rate w : length w = 4 -> content (f_stream f) = format_with w cc rate ++ data_id -> position (f_stream f) = 44 -> f_data_size f = 0%Z -> f_channels f = cc ->
  writing f cc rate [].
Proof. intros. split; [assumption|]. split; [assumption|]. split; [cbn; lia|]. exists w. split; [assumption|]. left. auto. Qed.
Lemma written_file errno header junk cc rate blocks frames : length header = 40 -> (forall k, length (junk k) = k) -> 0 < cc ->
  Forall2 (fun b fr => 0 < snd b /\ frames_of cc (fst b) (snd b) fr) blocks frames ->
  (36 + Z.of_nat (length (data_bytes narrow (concat frames))) < two32)%Z ->
  exists f0 f, open_write true errno None header cc rate = Some (status_success, Some f0) /\ write_all junk f0 blocks = Some (status_success, f) /\
    close_write None None f = wav_file cc rate (data_bytes narrow (concat frames)).
Proof.
  intros hh hj hc hF hb. destruct (open_write_correct errno header cc rate hh) as (f0 & w & e0 & h1 & h2 & h3 & h4 & h5).
  destruct (write_all_writing junk cc rate blocks f0 [] frames hj (open_writing f0 cc rate w h1 h2 h3 h4 h5) hc hF) as (f & e & hw); [cbn; lia|].
  exists f0, f. splits; auto. apply close_correct; [exact hw|lia].
Qed.
(** failures and empty writes are reported, the data size then is that of the successful writes *)
Lemma write_failure fault junk f samples n frames : (forall k, length (junk k) = k) -> frames_of (f_channels f) samples n frames ->
  (4 * Z.of_nat (f_channels f) * Z.of_nat n < two32)%Z -> fault <> None \/ f_channels f = 0 \/ n = 0 ->
  exists f', file_write D narrow true fault junk f samples n = Some (id_file_write, f') /\ f_data_size f' = f_data_size f /\ f_channels f' = f_channels f.
Proof.
  intros hj hf hb h. rewrite (write_exact fault junk f samples n frames hj hf hb).
  assert (e : exists s, fwrite fault (data_bytes narrow frames) (f_stream f) = (false, s)).
  { destruct (data_bytes narrow frames) as [|x b] eqn:ed; [eexists; reflexivity|]. destruct fault; [eexists; reflexivity|].
    exfalso. destruct h as [h|h]; [apply h; reflexivity|]. assert (hl := data_bytes_length frames (f_channels f) (frames_lengths _ _ _ _ hf)). rewrite ed in hl. destruct hf as [hf _]. rewrite hf in hl. cbn in hl. nia. }
  destruct e as [s ->]. eexists. split; [reflexivity|]. auto.
Qed.
End S.
