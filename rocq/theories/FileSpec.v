(** What a 32 bit float WAV file is, http://soundfile.sapp.org/doc/WaveFormat *)
From Verif Require Import Base.

(** [n] bytes, least significant first *)
Fixpoint bytes_le (n : nat) (x : Z) : list Z :=
  match n with O => [] | S n => (x mod 256)%Z :: bytes_le n (x / 256)%Z end.
(** "RIFF", "WAVE", "fmt ", "data" *)
Definition riff : list Z := [82; 73; 70; 70]%Z.
Definition wave : list Z := [87; 65; 86; 69]%Z.
Definition fmt : list Z := [102; 109; 116; 32]%Z.
Definition data_id : list Z := [100; 97; 116; 97]%Z.
(** the header up to the first chunk after the format: chunk size, format 3 (float), channels, rate, bytes per second, bytes per frame, 32 bit *)
Definition wav_format (chunk_size : Z) (channels : nat) (rate : Z) : list Z :=
  riff ++ bytes_le 4 chunk_size ++ wave ++ fmt ++ bytes_le 4 16 ++ bytes_le 2 3 ++ bytes_le 2 (Z.of_nat channels) ++ bytes_le 4 rate ++
  bytes_le 4 (rate * Z.of_nat channels * 4) ++ bytes_le 2 (Z.of_nat channels * 4) ++ bytes_le 2 32.
Definition chunk (id payload : list Z) : list Z := id ++ bytes_le 4 (Z.of_nat (length payload)) ++ payload.
Definition wav_file (channels : nat) (rate : Z) (data : list Z) : list Z :=
  wav_format (36 + Z.of_nat (length data)) channels rate ++ chunk data_id data.

(** frame [i] has one sample for each channel *)
Definition frames_of {D : Type} (channels : nat) (samples : list (list D)) (n : nat) (frames : list (list D)) : Prop :=
  length frames = n /\
  forall i, i < n -> exists fr, nth_error frames i = Some fr /\ length fr = channels /\
    forall j, j < channels -> exists c x, nth_error samples j = Some c /\ nth_error c i = Some x /\ nth_error fr j = Some x.
(** samples are stored one frame after the other *)
Definition data_bytes {D : Type} (narrow : D -> Z) (frames : list (list D)) : list Z :=
  concat (map (fun fr => concat (map (fun x => bytes_le 4 (narrow x)) fr)) frames).
