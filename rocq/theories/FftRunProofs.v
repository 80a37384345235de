(** What the transforms compute for any type of numbers: the in-place loops in terms of functions from positions to numbers. *)
From Verif Require Import Base KerProofs FftModel FftBits.

Section Run.
Variable V : Type.
Notation P := (V * V)%type.

(** the arrays hold the numbers z(0) .. z(n - 1) *)
Definition sig_of (s : arrays_of V) (n : nat) (z : nat -> P) : Prop :=
  length (fst s) = n /\ length (snd s) = n /\ forall i, i < n -> nth_error (fst s) i = Some (fst (z i)) /\ nth_error (snd s) i = Some (snd (z i)).
Lemma sig_ext_of s n z z' : sig_of s n z -> (forall i, i < n -> z i = z' i) -> sig_of s n z'.
Proof. intros (h1 & h2 & h3) h. split; [exact h1|]. split; [exact h2|]. intros i hi; rewrite <- h by exact hi; apply h3; exact hi. Qed.
Definition sw (a : P) : P := (snd a, fst a).
Lemma sig_swap_of re im n z : sig_of (re, im) n z -> sig_of (im, re) n (fun i => sw (z i)).
Proof. intros (h1 & h2 & h3). cbn [fst snd] in *. split; [exact h2|]. split; [exact h1|]. intros i hi. destruct (h3 i hi); auto. Qed.
Lemma sig_set_of re im n z k v : sig_of (re, im) n z -> k < n ->
  exists re' im', aset re k (fst v) = Some re' /\ aset im k (snd v) = Some im' /\ sig_of (re', im') n (fun i => if i =? k then v else z i).
Proof.
  intros (h1 & h2 & h3) hk. cbn [fst snd] in *. destruct (aset_some re k (fst v)) as [re' e1]; [lia|]. destruct (aset_some im k (snd v)) as [im' e2]; [lia|].
  exists re', im'. split; [exact e1|]. split; [exact e2|]. split; [|split]; cbn [fst snd].
  - rewrite (aset_length _ _ _ _ e1). exact h1.
  - rewrite (aset_length _ _ _ _ e2). exact h2.
  - intros i hi. rewrite (aset_get _ _ _ _ i e1), (aset_get _ _ _ _ i e2). destruct (Nat.eqb_spec i k); auto.
Qed.
Lemma sig_get_of re im n z i : sig_of (re, im) n z -> i < n -> aget re i = Some (fst (z i)) /\ aget im i = Some (snd (z i)).
Proof. intros (_ & _ & h) hi. apply h. exact hi. Qed.

Lemma sig_lists_of (zero : V) (s : arrays_of V) n : length (fst s) = n -> length (snd s) = n -> sig_of s n (fun i => (nth i (fst s) zero, nth i (snd s) zero)).
Proof. intros h1 h2. split; [exact h1|]. split; [exact h2|]. intros i hi. cbn [fst snd]. split; apply nth_error_nth'; lia. Qed.
(** ** permutation *)
Lemma swap_of_ok a i j x y : nth_error a i = Some x -> nth_error a j = Some y -> i <> j ->
  exists a', swap_of V i j a = Some a' /\ length a' = length a /\ forall k, nth_error a' k = if k =? i then Some y else if k =? j then Some x else nth_error a k.
Proof.
  intros hi hj hne. unfold swap_of, aget. rewrite hi, hj. cbn [bind]. assert (li := nth_error_lt _ _ _ hi). assert (lj := nth_error_lt _ _ _ hj).
  destruct (aset_some a i y li) as [a1 e1]. rewrite e1. cbn [bind]. destruct (aset_some a1 j x) as [a2 e2]; [rewrite (aset_length _ _ _ _ e1); exact lj|].
  exists a2. splits; [exact e2|rewrite (aset_length _ _ _ _ e2); apply (aset_length _ _ _ _ e1)|]. intros k. rewrite (aset_get _ _ _ _ k e2), (aset_get _ _ _ _ k e1).
  destruct (Nat.eqb_spec k j), (Nat.eqb_spec k i); auto; lia.
Qed.
Lemma permute_of_ok L s z : sig_of s (2 ^ L) z -> exists s', permute_of V (2 ^ L) L s = Some s' /\ sig_of s' (2 ^ L) (fun i => z (revb L i)).
Proof.
  intros hs. unfold permute_of. set (n := 2 ^ L) in *.
  destruct (for_inv (fun k s => sig_of s n (fun i => if Nat.min i (revb L i) <? k then z (revb L i) else z i))
    (fun i '(re, im) => let j := reverse_bits i L in
      if i <? j then re <- swap_of V i j re ;; im <- swap_of V i j im ;; Some (re, im) else Some (re, im)) 0 n s) as (s' & e & h).
  - lia.
  - apply (sig_ext_of _ _ _ _ hs). intros i hi. rewrite (proj2 (Nat.ltb_ge _ 0)) by lia. reflexivity.
  - intros k [re im] hk hz. cbv zeta. rewrite reverse_eq. assert (hr : revb L k < n) by apply revb_lt. assert (hrr : revb L (revb L k) = k) by (apply revb_revb; unfold n in hk; lia).
    destruct (Nat.ltb_spec k (revb L k)) as [hlt|hge].
    + destruct hz as (h1 & h2 & h3). cbn [fst snd] in *.
      pose proof (h3 k ltac:(lia)) as hk3. pose proof (h3 (revb L k) hr) as hr3. rewrite hrr in hr3.
      rewrite (proj2 (Nat.ltb_ge (Nat.min k (revb L k)) k)) in hk3 by lia. rewrite (proj2 (Nat.ltb_ge (Nat.min (revb L k) k) k)) in hr3 by lia.
      destruct hk3 as [a1 a2], hr3 as [b1 b2].
      destruct (swap_of_ok re k (revb L k) _ _ a1 b1) as (re' & e1 & l1 & g1); [lia|]. destruct (swap_of_ok im k (revb L k) _ _ a2 b2) as (im' & e2 & l2 & g2); [lia|].
      rewrite e1. cbn [bind]. rewrite e2. cbn [bind]. eexists. split; [reflexivity|]. split; [|split]; cbn [fst snd]; [lia|lia|].
      intros i hi. rewrite g1, g2. destruct (Nat.eqb_spec i k) as [->|hne1]; [|destruct (Nat.eqb_spec i (revb L k)) as [->|hne2]].
      * rewrite (proj2 (Nat.ltb_lt _ _)) by lia. auto.
      * rewrite hrr. rewrite (proj2 (Nat.ltb_lt _ _)) by lia. auto.
      * assert (hne3 : revb L i <> k). { intros e. apply hne2. rewrite <- e. symmetry. apply revb_revb. exact hi. }
        replace (Nat.min i (revb L i) <? S k) with (Nat.min i (revb L i) <? k); [apply h3; exact hi|]. destruct (Nat.ltb_spec (Nat.min i (revb L i)) k), (Nat.ltb_spec (Nat.min i (revb L i)) (S k)); auto; lia.
    + eexists. split; [reflexivity|]. apply (sig_ext_of _ _ _ _ hz). intros i hi. destruct (Nat.ltb_spec (Nat.min i (revb L i)) k), (Nat.ltb_spec (Nat.min i (revb L i)) (S k)); auto; try lia.
      assert (hm : Nat.min i (revb L i) = k) by lia. destruct (Nat.min_dec i (revb L i)) as [hmi|hmi]; rewrite hmi in hm.
      * subst k. assert (revb L i = i) as -> by lia. reflexivity.
      * assert (e2 : revb L k = i) by (rewrite <- hm; apply revb_revb; exact hi). assert (revb L i = i) as -> by lia. reflexivity.
  - exists s'. split; [exact e|]. apply (sig_ext_of _ _ _ _ h). intros i hi. rewrite (proj2 (Nat.ltb_lt _ n)) by lia. reflexivity.
Qed.

(** a transform that either transforms or fails and changes nothing *)
Definition good_of (T : (list nat -> bool) -> nat -> arrays_of V -> option (bool * arrays_of V)) (n : nat) (F : (nat -> P) -> nat -> P) : Prop :=
  forall ok s x, sig_of s n x -> exists st s', T ok n s = Some (st, s') /\ (if (st : bool) then sig_of s' n (F x) else s' = s) /\ ((forall p, ok p = true) -> st = true).
Lemma good_of_ext T n F G : good_of T n F -> (forall x i, i < n -> F x i = G x i) -> good_of T n G.
Proof.
  intros h e ok s x hs. destruct (h ok s x hs) as (st & s' & h1 & h2 & h3). exists st, s'. splits; auto. destruct st; [|exact h2]. apply (sig_ext_of _ _ _ _ h2). intros i hi. apply e. exact hi.
Qed.
Lemma loop_sig_of (body : nat -> list V * list V -> option (list V * list V)) n m g z s : n <= m -> sig_of s m z ->
  (forall i s, i < n -> sig_of s m (fun j => if j <? i then g j else z j) ->
    exists s', body i s = Some s' /\ sig_of s' m (fun j => if j =? i then g i else if j <? i then g j else z j)) ->
  exists s', for_ 0 n body s = Some s' /\ sig_of s' m (fun j => if j <? n then g j else z j).
Proof.
  intros hn hs hb. destruct (for_inv (fun k s => sig_of s m (fun j => if j <? k then g j else z j)) body 0 n s) as (s' & e & h); [lia|apply (sig_ext_of _ _ _ _ hs); intros; rewrite (proj2 (Nat.ltb_ge _ 0)) by lia; reflexivity| |eauto].
  intros i s1 hi h1. destruct (hb i s1) as (s2 & e2 & h2); [lia|exact h1|]. exists s2. split; [exact e2|]. apply (sig_ext_of _ _ _ _ h2). intros j hj.
  destruct (Nat.eqb_spec j i) as [->|]; [rewrite (proj2 (Nat.ltb_lt i (S i))) by lia; reflexivity|]. destruct (Nat.ltb_spec j i), (Nat.ltb_spec j (S i)); auto; lia.
Qed.
Lemma inverse_of_good T n F : good_of T n F -> good_of (inverse_of V T) n (fun x i => sw (F (fun j => sw (x j)) i)).
Proof.
  intros hT ok [re im] x hs. unfold inverse_of. cbn [fst snd]. destruct (hT ok (im, re) (fun i => sw (x i)) (sig_swap_of re im n x hs)) as (st & [im' re'] & e & h1 & h2). rewrite e. cbn [bind].
  exists st, (re', im'). splits; auto. destruct st; [apply sig_swap_of in h1; exact h1|]. injection h1 as -> ->. reflexivity.
Qed.
Variable add sub mul : V -> V -> V.
Variable neg : V -> V.
(** ** one stage *)
Definition padd (a b : P) : P := (add (fst a) (fst b), add (snd a) (snd b)).
Definition psub (a b : P) : P := (sub (fst a) (fst b), sub (snd a) (snd b)).
(** the product of a number and a twiddle factor that is given by cosine and sine *)
Definition ptwiddle (w z : P) : P := (add (mul (fst z) (fst w)) (mul (snd z) (snd w)), add (mul (neg (fst z)) (snd w)) (mul (snd z) (fst w))).
Lemma butterfly_of_ok ct st n z s j l k w : sig_of s n z -> j < n -> l < n -> j <> l -> nth_error ct k = Some (fst w) -> nth_error st k = Some (snd w) ->
  exists s', butterfly_of V add sub mul neg ct st j l k s = Some s' /\
    sig_of s' n (fun i => if i =? j then padd (z j) (ptwiddle w (z l)) else if i =? l then psub (z j) (ptwiddle w (z l)) else z i).
Proof.
  intros hs hj hl hne hc hsi. destruct s as [re im]. unfold butterfly_of, aget. destruct hs as (h1 & h2 & h3). cbn [fst snd] in *.
  destruct (h3 j hj) as [j1 j2]. destruct (h3 l hl) as [l1 l2]. rewrite l1, l2, hc, hsi, j1, j2. cbn [bind].
  destruct (sig_set_of re im n z l (psub (z j) (ptwiddle w (z l)))) as (re1 & im1 & e1 & e2 & hs1); [split; [|split]; auto|exact hl|].
  cbn [psub ptwiddle fst snd] in e1, e2. rewrite e1. cbn [bind]. rewrite e2. cbn [bind].
  destruct hs1 as (k1 & k2 & k3). cbn [fst snd] in *. destruct (k3 j hj) as [m1 m2]. destruct (Nat.eqb_spec j l); [contradiction|]. rewrite m1. cbn [bind].
  destruct (sig_set_of re1 im1 n (fun i => if i =? l then psub (z j) (ptwiddle w (z l)) else z i) j (padd (z j) (ptwiddle w (z l)))) as (re2 & im2 & e3 & e4 & hs2); [split; [|split]; auto|exact hj|].
  cbn [padd ptwiddle fst snd] in e3, e4. rewrite e3. cbn [bind]. rewrite m2. cbn [bind]. rewrite e4. cbn [bind].
  eexists. split; [reflexivity|]. exact hs2.
Qed.
Definition stage_run (half : nat) (tw : nat -> P) (z : nat -> P) (i : nat) : P :=
  let q := i mod (2 * half) in
  if q <? half then padd (z i) (ptwiddle (tw q) (z (i + half))) else psub (z (i - half)) (ptwiddle (tw (q - half)) (z i)).
(** which positions have been written when [q] steps of block [b] are done *)
Definition done_at (half b q i : nat) : bool :=
  let bi := i / (2 * half) in let qi := i mod (2 * half) in
  (bi <? b) || (bi =? b) && ((qi <? q) || (half <=? qi) && (qi <? half + q)).

Lemma stage_of_ok half B ct st s z tw : 0 < half -> 0 < B ->
  (forall q, q < half -> nth_error ct (q * B) = Some (fst (tw q)) /\ nth_error st (q * B) = Some (snd (tw q))) ->
  sig_of s (2 * half * B) z -> exists s', stage_of V add sub mul neg (2 * half * B) (2 * half) ct st s = Some s' /\ sig_of s' (2 * half * B) (stage_run half tw z).
Proof.
  intros hh hB htw hs. unfold stage_of. set (size := 2 * half) in *. set (n := size * B) in *.
  replace ((n + size - 1) / size) with B. 2: { unfold n. replace (size * B + size - 1) with ((size - 1) + B * size) by (unfold size; lia). rewrite Nat.div_add, Nat.div_small by (unfold size; lia). reflexivity. }
  replace (size / 2) with half by (unfold size; rewrite Nat.mul_comm, Nat.div_mul by lia; reflexivity).
  replace (n / size) with B by (unfold n; rewrite Nat.mul_comm, Nat.div_mul by (unfold size; lia); reflexivity).
  assert (hpos : forall b q, b < B -> q < size -> b * size + q < n). { intros b q hb hq. unfold n. nia. }
  assert (hdiv : forall b q, q < size -> (b * size + q) / size = b /\ (b * size + q) mod size = q).
  { intros b q hq. replace (b * size + q) with (q + b * size) by lia. rewrite Nat.div_add, Nat.mod_add, Nat.div_small, Nat.mod_small by (unfold size in *; lia). lia. }
  destruct (for_inv (fun b s => sig_of s n (fun i => if done_at half b 0 i then stage_run half tw z i else z i))
    (fun b s => let i := b * size in for_ i (i + half) (fun j s => butterfly_of V add sub mul neg ct st j (j + half) ((j - i) * B) s) s) 0 B s) as (s' & e & h).
  - lia.
  - apply (sig_ext_of _ _ _ _ hs). intros i hi. replace (done_at half 0 0 i) with false; [reflexivity|]. symmetry. unfold done_at. cbv zeta.
    destruct (Nat.eqb_spec (i / (2 * half)) 0); cbn; [|reflexivity]. destruct (Nat.leb_spec half (i mod (half + (half + 0)))); [|reflexivity]. cbn. apply Nat.ltb_ge. lia.
  - intros b s1 hb hz. cbv zeta.
    destruct (for_inv (fun j s => sig_of s n (fun i => if done_at half b (j - b * size) i then stage_run half tw z i else z i))
      (fun j s => butterfly_of V add sub mul neg ct st j (j + half) ((j - b * size) * B) s) (b * size) (b * size + half) s1) as (s2 & e2 & h2).
    + lia.
    + rewrite Nat.sub_diag. exact hz.
    + intros j s3 hj hz3. set (q := j - b * size) in *. assert (hq : q < half) by (unfold q; lia). assert (ej : j = b * size + q) by (unfold q; lia).
      assert (hjn : j < n) by (rewrite ej; apply hpos; unfold size; lia). assert (hln : j + half < n) by (rewrite ej, <- Nat.add_assoc; apply hpos; unfold size; lia).
      destruct (hdiv b q ltac:(unfold size; lia)) as [d1 d2]. rewrite <- ej in d1, d2. destruct (hdiv b (q + half) ltac:(unfold size; lia)) as [d3 d4]. rewrite Nat.add_assoc, <- ej in d3, d4.
      destruct (htw q hq) as [t1 t2].
      destruct (butterfly_of_ok ct st n (fun i => if done_at half b q i then stage_run half tw z i else z i) s3 j (j + half) (q * B) (tw q) hz3 hjn hln ltac:(lia) t1 t2) as (s4 & e4 & h4).
      exists s4. split; [exact e4|]. apply (sig_ext_of _ _ _ _ h4). intros i hi.
      assert (dj : done_at half b q j = false).
      { unfold done_at. fold size. cbv zeta. rewrite d1, d2, Nat.ltb_irrefl, Nat.eqb_refl, Nat.ltb_irrefl. cbn [orb andb]. rewrite (proj2 (Nat.leb_gt half q)) by lia. reflexivity. }
      assert (dl : done_at half b q (j + half) = false).
      { unfold done_at. fold size. cbv zeta. rewrite d3, d4, Nat.ltb_irrefl, Nat.eqb_refl. cbn [orb andb]. rewrite (proj2 (Nat.ltb_ge (q + half) q)) by lia. rewrite (proj2 (Nat.ltb_ge (q + half) (half + q))) by lia. rewrite andb_false_r. reflexivity. }
      rewrite dj, dl. replace (S j - b * size) with (S q) by lia.
      destruct (Nat.eqb_spec i j) as [->|ne1]; [|destruct (Nat.eqb_spec i (j + half)) as [->|ne2]].
      * replace (done_at half b (S q) j) with true. 2: { symmetry. unfold done_at. fold size. cbv zeta. rewrite d1, d2, Nat.eqb_refl, (proj2 (Nat.ltb_lt q (S q))) by lia. apply orb_true_r. }
        unfold stage_run. fold size. cbv zeta. rewrite d2, (proj2 (Nat.ltb_lt q half)) by exact hq. reflexivity.
      * replace (done_at half b (S q) (j + half)) with true. 2: { symmetry. unfold done_at. fold size. cbv zeta. rewrite d3, d4, Nat.eqb_refl, (proj2 (Nat.leb_le half (q + half))), (proj2 (Nat.ltb_lt (q + half) (half + S q))) by lia. cbn [andb]. rewrite !orb_true_r. reflexivity. }
        unfold stage_run. fold size. cbv zeta. rewrite d4, (proj2 (Nat.ltb_ge (q + half) half)) by lia. replace (j + half - half) with j by lia. replace (q + half - half) with q by lia. reflexivity.
      * replace (done_at half b (S q) i) with (done_at half b q i); [reflexivity|]. unfold done_at. fold size. cbv zeta.
        destruct (Nat.ltb_spec (i / size) b); [reflexivity|]. destruct (Nat.eqb_spec (i / size) b) as [eb|]; [|reflexivity]. cbn [orb andb].
        assert (ei : i = b * size + i mod size) by (rewrite (Nat.div_mod i size) at 1 by (unfold size; lia); rewrite eb; lia).
        assert (i mod size <> q) by (intros e5; apply ne1; lia). assert (i mod size <> q + half) by (intros e5; apply ne2; lia).
        destruct (Nat.ltb_spec (i mod size) q), (Nat.ltb_spec (i mod size) (S q)), (Nat.leb_spec half (i mod size)), (Nat.ltb_spec (i mod size) (half + q)), (Nat.ltb_spec (i mod size) (half + S q)); cbn [orb andb]; auto; lia.
    + exists s2. split; [exact e2|]. apply (sig_ext_of _ _ _ _ h2). intros i hi. replace (b * size + half - b * size) with half by lia.
      replace (done_at half (S b) 0 i) with (done_at half b half i); [reflexivity|]. unfold done_at. fold size. cbv zeta. pose proof (Nat.mod_upper_bound i size ltac:(unfold size; lia)).
      destruct (Nat.ltb_spec (i / size) b), (Nat.eqb_spec (i / size) b), (Nat.ltb_spec (i / size) (S b)), (Nat.eqb_spec (i / size) (S b)), (Nat.ltb_spec (i mod size) half), (Nat.leb_spec half (i mod size)), (Nat.ltb_spec (i mod size) (half + half)), (Nat.ltb_spec (i mod size) 0), (Nat.ltb_spec (i mod size) (half + 0)); cbn [orb andb]; auto; unfold size in *; lia.
  - exists s'. split; [exact e|]. apply (sig_ext_of _ _ _ _ h). intros i hi. replace (done_at half B 0 i) with true; [reflexivity|]. symmetry. unfold done_at. fold size. cbv zeta.
    rewrite (proj2 (Nat.ltb_lt (i / size) B)); [reflexivity|]. apply Nat.div_lt_upper_bound; [unfold size; lia|exact hi].
Qed.

(** ** convolution *)
Variable zero : V.
Variable over : V -> nat -> V.
Definition pmul (a b : P) : P := (sub (mul (fst a) (fst b)) (mul (snd a) (snd b)), add (mul (snd a) (fst b)) (mul (fst a) (snd b))).
Definition conv_run (n : nat) (F : (nat -> P) -> nat -> P) (X Y : nat -> P) (i : nat) : P :=
  let r := sw (F (fun j => sw (pmul (F X j) (F Y j))) i) in (over (fst r) n, over (snd r) n).
Lemma slice_all (a : list V) n : length a = n -> slice a 0 n = Some a.
Proof. intros h. unfold slice. rewrite (proj2 (Nat.leb_le _ _)) by lia. cbn [skipn]. rewrite firstn_all2 by lia. reflexivity. Qed.
Lemma convolve_of_good T ok n x y out X Y F : good_of T n F -> sig_of x n X -> sig_of y n Y -> length (fst out) = n -> length (snd out) = n ->
  exists st out', convolve_complex_of V add sub mul over T ok x y out n = Some (st, out') /\ (if (st : bool) then sig_of out' n (conv_run n F X Y) else out' = out) /\ ((forall p, ok p = true) -> st = true).
Proof.
  intros hT hx hy ho1 ho2. unfold convolve_complex_of, arrays_of in *. destruct (ok []) eqn:e0; cbn [negb]; [|exists false, out; splits; auto; intros h; rewrite h in e0; discriminate].
  destruct x as [xr xi], y as [yr yi]. cbn [fst snd]. pose proof hx as (lx1 & lx2 & _). pose proof hy as (ly1 & ly2 & _). cbn [fst snd] in *. rewrite !slice_all by assumption. cbn [bind].
  destruct (hT (fun p => ok (0 :: p)) (xr, xi) X hx) as (st1 & [xr1 xi1] & e1 & h1 & k1). rewrite e1. cbn [bind]. destruct st1; cbn [negb]; [|exists false, out; splits; auto].
  destruct (hT (fun p => ok (1 :: p)) (yr, yi) Y hy) as (st2 & [yr1 yi1] & e2 & h2 & k2). rewrite e2. cbn [bind]. destruct st2; cbn [negb]; [|exists false, out; splits; auto].
  match goal with |- context [for_ 0 n ?body (xr1, xi1)] => destruct (loop_sig_of body n n (fun i => pmul (F X i) (F Y i)) (F X) (xr1, xi1) (le_n n) h1) as ([xr2 xi2] & e3 & h3) end.
  { intros i [a b] hi hs. destruct (sig_get_of _ _ _ _ i hs hi) as [g1 g2]. rewrite Nat.ltb_irrefl in g1, g2. destruct (sig_get_of _ _ _ _ i h2 hi) as [g3 g4]. rewrite g1, g2, g3, g4. cbn [bind].
    destruct (sig_set_of a b n _ i (pmul (F X i) (F Y i)) hs hi) as (a' & b' & f1 & f2 & f3). cbn [pmul fst snd] in f1, f2. rewrite f2. cbn [bind]. rewrite f1. cbn [bind]. eexists. split; [reflexivity|]. exact f3. }
  rewrite e3. cbn [bind].
  assert (h3' : sig_of (xr2, xi2) n (fun i => pmul (F X i) (F Y i))) by (apply (sig_ext_of _ _ _ _ h3); intros i hi; rewrite (proj2 (Nat.ltb_lt _ _) hi); reflexivity).
  destruct (inverse_of_good T n F hT (fun p => ok (2 :: p)) (xr2, xi2) _ h3') as (st3 & [xr3 xi3] & e4 & h4 & k4). rewrite e4. cbn [bind]. destruct st3; cbn [negb]; [|exists false, out; splits; auto].
  match goal with |- context [for_ 0 n ?body out] => destruct (loop_sig_of body n n (conv_run n F X Y) _ out (le_n n) (sig_lists_of zero out n ho1 ho2)) as (out' & e5 & h5) end.
  { intros i [a b] hi hs. destruct (sig_get_of _ _ _ _ i h4 hi) as [g1 g2]. rewrite g1, g2. cbn [bind].
    destruct (sig_set_of a b n _ i (conv_run n F X Y i) hs hi) as (a' & b' & f1 & f2 & f3). cbn [conv_run fst snd] in f1, f2. rewrite f1. cbn [bind]. rewrite f2. cbn [bind]. eexists. split; [reflexivity|]. exact f3. }
  rewrite e5. cbn [bind]. exists true, out'. splits; auto. apply (sig_ext_of _ _ _ _ h5). intros i hi. rewrite (proj2 (Nat.ltb_lt _ _) hi). reflexivity.
Qed.

Variable cos_turn sin_turn cos_half sin_half : nat -> nat -> V.
(** ** all stages *)
Definition tw_run (L p q : nat) : P := (cos_turn (q * 2 ^ (L - S p)) (2 ^ L), sin_turn (q * 2 ^ (L - S p)) (2 ^ L)).
Fixpoint level_run (L p : nat) (x : nat -> P) (i : nat) : P :=
  match p with O => x (revb L i) | S p => stage_run (2 ^ p) (tw_run L p) (level_run L p x) i end.
Lemma stages_of_ok L ct st x : forall fuel p s, p <= L -> L < fuel + p \/ p = L ->
  (forall i, i < 2 ^ L / 2 -> nth_error ct i = Some (cos_turn i (2 ^ L))) ->
  (forall i, i < 2 ^ L / 2 -> nth_error st i = Some (sin_turn i (2 ^ L))) ->
  sig_of s (2 ^ L) (level_run L p x) -> p < L \/ L = 0 ->
  exists s', stages_of V add sub mul neg fuel (2 ^ L) (2 ^ S p) ct st s = Some s' /\ sig_of s' (2 ^ L) (level_run L L x).
Proof.
  induction fuel as [|fuel IH]; intros p s hp hf hct hst hs hpl.
  - destruct hpl as [hpl|hpl]; [lia|]. subst L. replace p with 0 in * by lia. exists s. split; [reflexivity|exact hs].
  - destruct hpl as [hpl|hpl]; [|subst L; replace p with 0 in * by lia; exists s; split; [reflexivity|exact hs]].
    cbn [stages_of]. assert (hle : 2 ^ S p <= 2 ^ L) by (apply Nat.pow_le_mono_r; lia). rewrite (proj2 (Nat.leb_le _ _) hle).
    pose proof (pow2_pos p) as hpp. pose proof (pow2_pos (L - S p)) as hpb.
    assert (en : 2 ^ L = 2 * 2 ^ p * 2 ^ (L - S p)) by (change (2 * 2 ^ p) with (2 ^ S p); rewrite <- Nat.pow_add_r; f_equal; lia).
    assert (eh : 2 ^ L / 2 = 2 ^ p * 2 ^ (L - S p)) by (rewrite en; replace (2 * 2 ^ p * 2 ^ (L - S p)) with (2 ^ p * 2 ^ (L - S p) * 2) by lia; apply Nat.div_mul; lia).
    destruct (stage_of_ok (2 ^ p) (2 ^ (L - S p)) ct st s (level_run L p x) (tw_run L p) hpp hpb) as (s1 & e1 & h1).
    + intros q hq. unfold tw_run. cbn [fst snd]. split; [apply hct|apply hst]; nia.
    + rewrite <- en. exact hs.
    + change (2 ^ S p) with (2 * 2 ^ p). rewrite <- en in e1, h1. rewrite e1. cbn [bind].
      assert (hs1 : sig_of s1 (2 ^ L) (level_run L (S p) x)) by exact h1.
      destruct (Nat.eqb_spec (2 * 2 ^ p) (2 ^ L)) as [e|ne].
      * assert (S p = L) by (apply (Nat.pow_inj_r 2); [lia|exact e]). subst L. exists s1. split; [reflexivity|exact hs1].
      * assert (S p < L). { destruct (Nat.eq_dec (S p) L) as [e|]; [exfalso; apply ne; rewrite <- e; reflexivity|lia]. }
        destruct (IH (S p) s1) as (s2 & e2 & h2); auto; try lia. exists s2. split; [|exact h2]. rewrite <- e2. f_equal. cbn [Nat.pow]. lia.
Qed.

Variable junk : nat -> list V.
Hypothesis junk_length : forall n, length (junk n) = n.
Lemma table_of_ok f size : exists t, table_of V junk f size = Some t /\ length t = size /\ forall i, i < size -> nth_error t i = Some (f i).
Proof.
  unfold table_of. destruct (for_inv (fun k o => length o = size /\ forall i, i < k -> nth_error o i = Some (f i)) (fun i t => aset t i (f i)) 0 size (junk size)) as (t & e & h1 & h2); [lia|split; [apply junk_length|lia]| |eauto].
  intros i o hi [h1 h2]. destruct (aset_some o i (f i)) as [o' e]; [lia|]. exists o'. split; [exact e|]. split; [rewrite (aset_length _ _ _ _ e); exact h1|].
  intros j hj. rewrite (aset_get _ _ _ _ j e). destruct (Nat.eqb_spec j i) as [->|ne]; [reflexivity|]. apply h2. lia.
Qed.
Lemma radix2_of_good L : good_of (transform_radix2_of V add sub mul neg cos_turn sin_turn junk) (2 ^ L) (level_run L L).
Proof.
  intros ok s x hs. unfold transform_radix2_of. rewrite levels_pow2 by (pose proof (pow2_gt L); lia). cbn [bind Nat.add].
  replace (Nat.shiftl 1 L) with (2 ^ L) by (rewrite Nat.shiftl_1_l; reflexivity). rewrite Nat.eqb_refl. cbn [negb].
  destruct (ok []) eqn:e0; [|exists false, s; splits; auto; intros h; rewrite h in e0; discriminate].
  destruct (table_of_ok (fun i => cos_turn i (2 ^ L)) (2 ^ L / 2)) as (ct & e1 & _ & hct). rewrite e1. cbn [bind].
  destruct (table_of_ok (fun i => sin_turn i (2 ^ L)) (2 ^ L / 2)) as (st & e2 & _ & hst). rewrite e2. cbn [bind].
  destruct (permute_of_ok L s x hs) as (s1 & e3 & h1). rewrite e3. cbn [bind].
  destruct (stages_of_ok L ct st x (2 ^ L) 0 s1) as (s2 & e4 & h2); auto; try lia.
  - left. pose proof (pow2_gt L). lia.
  - change (2 ^ 1) with 2 in e4. rewrite e4. cbn [bind]. exists true, s2. splits; auto.
Qed.

(** ** Bluestein's algorithm *)
Definition pzero : P := (zero, zero).
Definition chirp (n i : nat) : P := (cos_half ((i * i) mod (n * 2)) n, sin_half ((i * i) mod (n * 2)) n).
Definition first_run (n : nat) (x : nat -> P) (i : nat) : P := if i <? n then ptwiddle (chirp n i) (x i) else pzero.
(** the second signal when the positions below [k] are done *)
Definition second_run (m k n : nat) (i : nat) : P := if i <? k then chirp n i else if m - k <? i then chirp n (m - i) else pzero.
Definition bluestein_run (n m : nat) (F : (nat -> P) -> nat -> P) (x : nat -> P) (i : nat) : P :=
  ptwiddle (chirp n i) (conv_run m F (first_run n x) (second_run m n n) i).
Lemma zeros_sig_of m : sig_of (repeat zero m, repeat zero m) m (fun _ => pzero).
Proof. split; [apply repeat_length|]. split; [apply repeat_length|]. intros i hi. cbn [fst snd pzero]. split; apply nth_error_repeat; exact hi. Qed.
Lemma bluestein_of_good T n m F : 0 < n -> length_loop (n + 2) n 1 = Some m -> 2 * n < m -> good_of T m F ->
  good_of (transform_bluestein_of V zero add sub mul neg over cos_half sin_half junk T) n (bluestein_run n m F).
Proof.
  intros hn eL hm hT ok [re im] x hs. unfold transform_bluestein_of, arrays_of in *. rewrite eL. cbn [bind].
  destruct (ok []) eqn:e0; cbn [negb]; [|exists false, (re, im); splits; auto; intros h; rewrite h in e0; discriminate].
  destruct (table_of_ok (fun i => cos_half ((i * i) mod (n * 2)) n) n) as (ct & e1 & _ & hct). rewrite e1. cbn [bind].
  destruct (table_of_ok (fun i => sin_half ((i * i) mod (n * 2)) n) n) as (st & e2 & _ & hst). rewrite e2. cbn [bind].
  assert (hch : forall i, i < n -> aget ct i = Some (fst (chirp n i)) /\ aget st i = Some (snd (chirp n i))) by (intros i hi; split; [apply hct|apply hst]; exact hi).
  (* the first signal *)
  match goal with |- context [for_ 0 n ?body (repeat zero m, repeat zero m)] => destruct (loop_sig_of body n m (first_run n x) (fun _ => pzero) (repeat zero m, repeat zero m)) as (a & e3 & h3) end; [lia|apply zeros_sig_of| |].
  { intros i [ar ai] hi hz. destruct (sig_get_of _ _ _ _ i hs hi) as [g1 g2]. destruct (hch i hi) as [g3 g4]. rewrite g1, g2, g3, g4. cbn [bind].
    destruct (sig_set_of ar ai m _ i (first_run n x i) hz) as (ar' & ai' & f1 & f2 & f3); [lia|]. unfold first_run at 1 in f1. unfold first_run at 1 in f2. rewrite (proj2 (Nat.ltb_lt _ _) hi) in f1, f2. cbn [ptwiddle fst snd] in f1, f2.
    rewrite f1. cbn [bind]. rewrite f2. cbn [bind]. eexists. split; [reflexivity|exact f3]. }
  rewrite e3. cbn [bind].
  (* the second signal *)
  destruct (hch 0 hn) as [c0 s0]. rewrite c0, s0. cbn [bind].
  destruct (sig_set_of (repeat zero m) (repeat zero m) m (fun _ => pzero) 0 (chirp n 0) (zeros_sig_of m)) as (br & bi & f1 & f2 & f3); [lia|]. rewrite f1. cbn [bind]. rewrite f2. cbn [bind].
  match goal with |- context [for_ 1 n ?body (br, bi)] => destruct (for_inv (fun k (s : list V * list V) => sig_of s m (second_run m k n)) body 1 n (br, bi)) as (b & e4 & h4) end.
  { lia. }
  { apply (sig_ext_of _ _ _ _ f3). intros i hi. unfold second_run. destruct (Nat.eqb_spec i 0) as [->|]; [reflexivity|]. rewrite (proj2 (Nat.ltb_ge i 1)) by lia. rewrite (proj2 (Nat.ltb_ge (m - 1) i)) by lia. reflexivity. }
  { intros k [ar ai] hk hz. destruct (hch k ltac:(lia)) as [g3 g4]. rewrite g3, g4. cbn [bind].
    destruct (sig_set_of ar ai m _ (m - k) (chirp n k) hz) as (ar1 & ai1 & q1 & q2 & q3); [lia|]. rewrite q1. cbn [bind].
    destruct (sig_set_of ar1 ai1 m _ k (chirp n k) q3) as (ar2 & ai2 & q4 & q5 & q6); [lia|]. rewrite q4. cbn [bind]. rewrite q2. cbn [bind]. rewrite q5. cbn [bind].
    eexists. split; [reflexivity|]. apply (sig_ext_of _ _ _ _ q6). intros i hi. unfold second_run. destruct (Nat.eqb_spec i k) as [->|]; [rewrite (proj2 (Nat.ltb_lt k (S k))) by lia; reflexivity|].
    destruct (Nat.eqb_spec i (m - k)) as [->|]; [rewrite (proj2 (Nat.ltb_ge (m - k) (S k))), (proj2 (Nat.ltb_lt (m - S k) (m - k))) by lia; replace (m - (m - k)) with k by lia; reflexivity|].
    destruct (Nat.ltb_spec i k), (Nat.ltb_spec i (S k)), (Nat.ltb_spec (m - k) i), (Nat.ltb_spec (m - S k) i); auto; lia. }
  rewrite e4. cbn [bind].
  assert (h3' : sig_of a m (first_run n x)). { apply (sig_ext_of _ _ _ _ h3). intros i hi. destruct (Nat.ltb_spec i n); [reflexivity|]. unfold first_run. rewrite (proj2 (Nat.ltb_ge i n)) by lia. reflexivity. }
  destruct (convolve_of_good T (fun p => ok (0 :: p)) m a b (junk m, junk m) _ _ F hT h3' h4 (junk_length m) (junk_length m)) as (st1 & [cr ci] & e5 & h5 & k5). rewrite e5. cbn [bind].
  destruct st1; cbn [negb]; [|exists false, (re, im); splits; auto].
  match goal with |- context [for_ 0 n ?body (re, im)] => destruct (loop_sig_of body n n (bluestein_run n m F x) x (re, im) (le_n n) hs) as (s' & e6 & h6) end.
  { intros i [ar ai] hi hz. destruct (sig_get_of _ _ _ _ i h5 ltac:(lia)) as [g1 g2]. destruct (hch i hi) as [g3 g4]. rewrite g1, g2, g3, g4. cbn [bind].
    destruct (sig_set_of ar ai n _ i (bluestein_run n m F x i) hz hi) as (ar' & ai' & r1 & r2 & r3). unfold bluestein_run at 1 in r1. unfold bluestein_run at 1 in r2. cbn [ptwiddle fst snd] in r1, r2.
    rewrite r1. cbn [bind]. rewrite r2. cbn [bind]. eexists. split; [reflexivity|exact r3]. }
  rewrite e6. cbn [bind]. exists true, s'. splits; auto. apply (sig_ext_of _ _ _ _ h6). intros i hi. rewrite (proj2 (Nat.ltb_lt _ _) hi). reflexivity.
Qed.

(** ** any length *)
Notation transform_v := (transform_of V zero add sub mul neg over cos_turn sin_turn cos_half sin_half junk).
Lemma transform_pow2_of depth L : good_of (transform_v depth) (2 ^ L) (level_run L L).
Proof.
  intros ok s x hs. pose proof (pow2_pos L) as hp. destruct depth; cbn [transform_of]; rewrite (proj2 (Nat.eqb_neq (2 ^ L) 0)) by lia;
    rewrite (proj2 (Nat.eqb_eq _ 0) (proj2 (pow2_test (2 ^ L) hp) (ex_intro _ L eq_refl))); apply radix2_of_good; exact hs.
Qed.
Lemma transform_other_of depth n : 0 < n -> Nat.land n (n - 1) <> 0 ->
  exists L, 2 * n < 2 ^ L <= 4 * n /\ good_of (transform_v (S depth)) n (bluestein_run n (2 ^ L) (level_run L L)).
Proof.
  intros hn e. destruct (length_loop_spec n hn (n + 2) 0) as (L & eL & hm & hm'); [lia|cbn; lia|]. change (2 ^ 0) with 1 in eL. exists L. split; [split; assumption|].
  intros ok s x hs. cbn [transform_of]. rewrite (proj2 (Nat.eqb_neq n 0)), (proj2 (Nat.eqb_neq _ 0) e) by lia.
  apply (bluestein_of_good (transform_v depth) n (2 ^ L) (level_run L L) hn eL hm (transform_pow2_of depth L) ok s x hs).
Qed.
Lemma transform_zero_of depth F : good_of (transform_v depth) 0 F.
Proof. intros ok s x hs. destruct depth; cbn [transform_of]; rewrite Nat.eqb_refl; exists true, s; splits; auto; apply (sig_ext_of _ _ _ _ hs); lia. Qed.
End Run.
