(** Model of WAV file reading and writing, P/file.c (P is /repo/source/c-precompiled/sph-sp).

    - A stream is its content, a list of bytes, a position and the end of file indicator. Buffering is left out.
    - Results of the calls of the C library that can fail are arguments: [fault = Some k] for fwrite: only k bytes are written.
    - The host is little endian.
    - [D] is the sample type (double), [narrow] its conversion to the 32 bits of a float and [widen] the conversion back, both arbitrary.
    - [junk]: uninitialised bytes. *)
From Verif Require Import Base.

Record stream := { content : list Z; position : nat; at_end : bool }.
(** writing at a position; a gap after the end is filled with zero *)
Definition put (s : stream) (b : list Z) : stream :=
  {| content := firstn (position s) (content s ++ repeat 0%Z (position s - length (content s))) ++ b ++ skipn (position s + length b) (content s);
     position := position s + length b; at_end := false |}.
Definition seek (s : stream) (p : nat) : stream := {| content := content s; position := p; at_end := false |}.
(** fwrite(b, size of b, 1, s) != 0 *)
Definition fwrite (fault : option nat) (b : list Z) (s : stream) : bool * stream :=
  match b, fault with
  | [], _ => (false, s)
  | _, None => (true, put s b)
  | _, Some k => (false, put s (firstn k b))
  end.
(** fread(b, size, count, s): the bytes of the elements that were completely read and their number. A partial element is consumed. *)
Definition fread (size count : nat) (s : stream) : list Z * nat * stream :=
  let available := skipn (position s) (content s) in
  let n := Nat.min (size * count) (length available) in
  (firstn (size * (n / size)) available, n / size,
   {| content := content s; position := position s + n; at_end := at_end s || (n <? size * count) |}).

Definition le16 (x : Z) : list Z := [x mod 256; x / 256 mod 256]%Z.
Definition le32 (x : Z) : list Z := [x mod 256; x / 256 mod 256; x / 65536 mod 256; x / 16777216 mod 256]%Z.
Definition of_le (b : list Z) : Z := fold_right (fun x acc => (x + 256 * acc)%Z) 0%Z b.
(** htonl of a constant on a little endian host gives the bytes in reading order, file.c:4-7 *)
Definition htonl (x : Z) : Z := of_le [x / 16777216 mod 256; x / 65536 mod 256; x / 256 mod 256; x mod 256]%Z.
Definition wav_string_riff : Z := htonl 1380533830.
Definition wav_string_fmt : Z := htonl 1718449184.
Definition wav_string_wav : Z := htonl 1463899717.
Definition wav_string_data : Z := htonl 1684108385.

(** status ids, P/main.h:13-22 *)
Definition status_success : Z := 0.
Definition id_file_write : Z := 2.
Definition id_file_read : Z := 3.
Definition id_file_not_implemented : Z := 4.
Definition id_file_eof : Z := 5.

(** sp_file_t, P/main.h:116-120 *)
Record file := { f_stream : stream; f_data_size : Z; f_channels : nat }.

(** sp_file_open_write, file.c:8-35. [opened]: fopen succeeded; [junk]: the uninitialised header array of 40 bytes. [errno]: the status otherwise.
    fopen with mode w empties the file. *)
Definition open_write (opened : bool) (errno : Z) (fault : option nat) (junk : list Z) (channel_count : nat) (sample_rate : Z) : option (Z * option file) :=
  _ <- need (length junk =? 40) ;;
  let cc := Z.of_nat channel_count in
  h <- splice junk 0 (le32 wav_string_riff) ;;
  h <- splice h 8 (le32 wav_string_wav) ;;
  h <- splice h 12 (le32 wav_string_fmt) ;;
  h <- splice h 16 (le32 16) ;;
  h <- splice h 20 (le16 3) ;;
  h <- splice h 22 (le16 cc) ;;
  h <- splice h 24 (le32 sample_rate) ;;
  h <- splice h 28 (le32 (u32 (u32 (sample_rate * cc) * 4))) ;;
  h <- splice h 32 (le16 (cc * 4)) ;;
  h <- splice h 34 (le16 32) ;;
  h <- splice h 36 (le32 wav_string_data) ;;
  if opened then
    let '(ok, s) := fwrite fault h {| content := []; position := 0; at_end := false |} in
    if ok then Some (status_success, Some {| f_stream := seek s (position s + 4); f_data_size := 0; f_channels := channel_count |})
    else Some (id_file_write, None)
  else Some (errno, None).

(** sp_file_close_write, file.c:36-44: the final content *)
Definition close_write (fault1 fault2 : option nat) (f : file) : list Z :=
  let chunk_size := u32 (36 + f_data_size f) in
  let s := seek (f_stream f) 4 in
  let s := snd (fwrite fault1 (le32 chunk_size) s) in
  let s := seek s 40 in
  let s := snd (fwrite fault2 (le32 (f_data_size f)) s) in
  content s.

Section Samples.
Variable D : Type.
Variable narrow : D -> Z.
Variable widen : Z -> D.

(** sp_file_write, file.c:45-66. interleaved_size is computed with 32 bit. [malloc]: the allocation succeeded; if not then the status is success
    nevertheless, see C59, and a null pointer is written to. *)
Definition file_write (malloc : bool) (fault : option nat) (junk : nat -> list Z) (f : file) (samples : list (list D)) (sample_count : nat) : option (Z * file) :=
  let cc := f_channels f in
  let interleaved_size := Z.to_nat (u32 (u32 (Z.of_nat cc * Z.of_nat sample_count) * 4)) in
  _ <- need (malloc || (cc =? 0) || (sample_count =? 0)) ;;
  let file_data := junk (interleaved_size / 4) in
  file_data <- for_ 0 sample_count (fun i fd =>
    for_ 0 cc (fun j fd =>
      c <- aget samples j ;; x <- aget c i ;;
      aset fd (Z.to_nat (u32 (u32 (Z.of_nat i * Z.of_nat cc) + Z.of_nat j))) (narrow x)) fd) file_data ;;
  let '(ok, s) := fwrite fault (concat (map le32 file_data)) (f_stream f) in
  if ok then Some (status_success, {| f_stream := s; f_data_size := u32 (f_data_size f + Z.of_nat interleaved_size); f_channels := cc |})
  else Some (id_file_write, {| f_stream := s; f_data_size := f_data_size f; f_channels := cc |}).

(** the loop over chunks in sp_file_open_read, file.c:81-89. [None]: out of fuel *)
Fixpoint find_data (fuel : nat) (id size : Z) (s : stream) : option (Z * stream) :=
  if (id =? wav_string_data)%Z then Some (status_success, s)
  else
    match fuel with
    | O => None
    | S fuel =>
      let s := seek s (position s + Z.to_nat size) in
      let '(b1, n1, s) := fread 4 1 s in
      if n1 =? 0 then Some (id_file_read, s)
      else
        let '(b2, n2, s) := fread 4 1 s in
        if n2 =? 0 then Some (id_file_read, s) else find_data fuel (of_le b1) (of_le b2) s
    end.
(** sp_file_open_read, file.c:67-92. [bytes = None]: fopen failed, then a null pointer is passed to fread. [before]: sp_file_t as it is before the
    call; only the stream is set. *)
Definition open_read (bytes : option (list Z)) (before : file) : option (Z * file) :=
  bytes <- bytes ;;
  let '(h, n, s) := fread 44 1 {| content := bytes; position := 0; at_end := false |} in
  let result := fun r : Z * stream => Some (fst r, {| f_stream := snd r; f_data_size := f_data_size before; f_channels := f_channels before |}) in
  if negb (n =? 0) && (of_le (firstn 4 h) =? wav_string_riff)%Z && (of_le (firstn 4 (skipn 8 h)) =? wav_string_wav)%Z && (of_le (firstn 4 (skipn 12 h)) =? wav_string_fmt)%Z then
    if (of_le (firstn 2 (skipn 20 h)) =? 3)%Z && (of_le (firstn 2 (skipn 34 h)) =? 32)%Z then
      r <- find_data (S (length bytes)) (of_le (firstn 4 (skipn 36 h))) (of_le (firstn 4 (skipn 40 h))) s ;; result r
    else result (id_file_not_implemented, s)
  else result (id_file_read, s).

(** sp_file_read, file.c:93-118: the value of the variable status at the end, the samples and the stream. The allocated buffer is
    4 * interleaved_count bytes in 32 bit arithmetic. *)
Definition file_read_status (malloc : bool) (f : file) (sample_count : nat) (samples : list (list D)) : option (Z * list (list D) * stream) :=
  let cc := f_channels f in
  let interleaved_count := Z.to_nat (u32 (Z.of_nat cc * Z.of_nat sample_count)) in
  _ <- need (malloc || (interleaved_count =? 0)) ;;
  _ <- need (4 * interleaved_count <=? Z.to_nat (u32 (4 * Z.of_nat interleaved_count))) ;;
  let '(bytes, read, s) := fread 4 interleaved_count (f_stream f) in
  let file_data := map (fun i => widen (of_le (firstn 4 (skipn (4 * i) bytes)))) (seq 0 read) in
  if negb (interleaved_count =? read) && negb (at_end s) then Some (id_file_read, samples, s)
  else if negb (interleaved_count =? read) && (read =? 0) then Some (id_file_eof, samples, s)
  else
    _ <- need (negb (cc =? 0)) ;;
    samples <- for_ 0 (read / cc) (fun i samples =>
      for_ 0 cc (fun j samples =>
        x <- aget file_data (i * cc + j) ;;
        c <- aget samples j ;; c <- aset c i x ;; aset samples j c) samples) samples ;;
    Some (status_success, samples, s).
(** The function ends without a return statement (file.c:115-118): the returned value is undefined, [None]. *)
Definition file_read (malloc : bool) (f : file) (sample_count : nat) (samples : list (list D)) : option (option Z * list (list D) * stream) :=
  '(_, samples, s) <- file_read_status malloc f sample_count samples ;; Some (None, samples, s).
End Samples.
