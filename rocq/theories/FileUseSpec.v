(** Histories of calls on WAV files. *)
From Verif Require Import Base FileModel FileSpec.

(** a file with other chunks before the data chunk *)
Definition wav_chunks (l : list (list Z * list Z)) : list Z := concat (map (fun c => chunk (fst c) (snd c)) l).
Definition chunk_ok (c : list Z * list Z) : Prop :=
  length (fst c) = 4 /\ Forall (fun x => 0 <= x < 256)%Z (fst c) /\ fst c <> data_id /\ (Z.of_nat (length (snd c)) < two32)%Z.

Section S.
Variable D : Type.
Variable narrow : D -> Z.
Variable widen : Z -> D.

(** the calls of sp_file_write for blocks of samples with their sample counts, up to the first failure *)
Fixpoint write_all (junk : nat -> list Z) (f : file) (blocks : list (list (list D) * nat)) : option (Z * file) :=
  match blocks with
  | [] => Some (status_success, f)
  | (samples, n) :: rest =>
    '(st, f) <- file_write D narrow true None junk f samples n ;;
    if (st =? status_success)%Z then write_all junk f rest else Some (st, f)
  end.
(** calls of sp_file_read with sample counts and output arrays: status and output of each *)
Fixpoint read_all (f : file) (reads : list (nat * list (list D))) : option (list (Z * list (list D))) :=
  match reads with
  | [] => Some []
  | (n, samples) :: rest =>
    '(st, out, s) <- file_read_status D widen true f n samples ;;
    r <- read_all {| f_stream := s; f_data_size := f_data_size f; f_channels := f_channels f |} rest ;;
    Some ((st, out) :: r)
  end.
(** arrays for [cc] channels with space for the sample count *)
Definition read_ok (cc : nat) (read : nat * list (list D)) : Prop :=
  cc <= length (snd read) /\ (forall j c, j < cc -> nth_error (snd read) j = Some c -> fst read <= length c) /\ (4 * Z.of_nat cc * Z.of_nat (fst read) < two32)%Z.
(** What the calls have to give: every call delivers the next frames, as many as requested or left. End of file is signalled when frames are
    requested and none are left. Output behind the delivered frames is unchanged. [g]: what storing and loading makes of a sample *)
Fixpoint reads_expected (g : D -> D) (cc : nat) (frames : list (list D)) (reads : list (nat * list (list D))) (results : list (Z * list (list D))) : Prop :=
  match reads, results with
  | [], [] => True
  | (n, samples) :: reads, (st, out) :: results =>
    st = (if (0 <? n) && (length frames =? 0) then id_file_eof else status_success) /\
    length out = length samples /\
    (forall j c, nth_error samples j = Some c -> exists c', nth_error out j = Some c' /\ length c' = length c /\
      forall i, nth_error c' i =
        if (j <? cc) && (i <? n) && (i <? length frames) then match nth_error frames i with Some fr => option_map g (nth_error fr j) | None => None end
        else nth_error c i) /\
    reads_expected g cc (skipn n frames) reads results
  | _, _ => False
  end.
End S.

(** frames as lists of samples *)
Definition flat {V : Type} (cc : nat) (out : list (nat -> V)) : list (list V) := map (fun fr => map fr (seq 0 cc)) out.
