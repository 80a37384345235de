(** Model of P/plot.c. Strings are lists of bytes without the terminating zero. Allocations of paths and commands succeed. *)
From Verif Require Import Base FftModel SeqModel RenderModel.
From Coq Require Import Reals String Ascii.
Open Scope nat_scope.
Notation length := List.length.

Definition text (s : string) : list Z := map (fun c => Z.of_N (N_of_ascii c)) (list_ascii_of_string s).
(** "%lu": decimal digits *)
Fixpoint digits (fuel : nat) (n : Z) : list Z :=
  if (n <? 10)%Z then [48 + n]%Z else match fuel with O => [] | S fuel => digits fuel (n / 10) ++ [48 + n mod 10]%Z end.
Definition decimal (n : Z) : list Z := digits 20 n.
(** snprintf(buffer, size, ...): what is in the buffer afterwards *)
Definition snprintf (size : nat) (s : list Z) : list Z := firstn (size - 1) s.
(** plot.c:1-3 *)
Definition temp_path : list Z := text "/tmp/sp-plot".
Definition dash : list Z := text "-".
Definition index_maxlength : nat := 10.
(** a command pattern: the parts before and after %s, plot.c:5-6. The pattern in line 7 is only used by sp_plot_times_file with use_steps 0, what no function of the library does *)
Definition pattern_start : list Z := text "gnuplot --persist -e 'set key off; set size ratio 0.618; plot """.
Definition pattern_lines : list Z * list Z := (pattern_start, text """ with lines lc rgb ""blue""'").
Definition pattern_steps : list Z * list Z := (pattern_start, text """ with histeps lc rgb ""blue""'").
Definition pattern_length (p : list Z * list Z) : nat := length (fst p) + 2 + length (snd p).

(** the files with their contents, the counter sp_plot_temp_file_index, the commands that have been run with what was in the file system at that time, and the number
    of memory regions that have been allocated and not freed *)
Record desk := mkdesk { files : list Z -> option (list Z); index : Z; commands : list (list Z * (list Z -> option (list Z))); regions : nat }.
Definition set_file (w : desk) (path content : list Z) : desk :=
  mkdesk (fun p => if list_eq_dec Z.eq_dec p path then Some content else files w p) (index w) (commands w) (regions w).
(** the path in sp_plot_samples, sp_plot_times and sp_plot_spectrum, plot.c:55-60, 67-72, 107-112. path_size is a byte *)
Definition plot_path (i : Z) : list Z :=
  snprintf (Z.to_nat ((1 + Z.of_nat index_maxlength + Z.of_nat (length temp_path)) mod 256)) (temp_path ++ dash ++ decimal i).
Definition next_index (w : desk) : desk := mkdesk (files w) (u32 (1 + index w)) (commands w) (regions w).

Section Plot.
Context {V : Type}.
(** fprintf with %.3f or %lu, without the newline *)
Variable format : V -> list Z.
(** fopen with mode w succeeds; if not then a null stream is used *)
Variable can_open : list Z -> bool.
(** sp_plot_samples_to_file and sp_plot_times_to_file, plot.c:8-25 *)
Definition to_file (a : list V) (size : nat) (path : list Z) (w : desk) : option desk :=
  _ <- need (can_open path) ;;
  content <- for_ 0 size (fun i c => x <- aget a i ;; Some (c ++ format x ++ [10]%Z)) [] ;;
  Some (set_file w path content).
(** sp_plot_samples_file and sp_plot_times_file, plot.c:26-53; the pattern is chosen by the caller *)
Definition run_file (pattern : list Z * list Z) (path : list Z) (w : desk) : desk :=
  let command := snprintf (length path + pattern_length pattern) (fst pattern ++ path ++ snd pattern) in
  mkdesk (files w) (index w) (commands w ++ [(command, files w)]) (regions w).
(** sp_plot_samples and sp_plot_times, plot.c:54-77 *)
Definition plot (pattern : list Z * list Z) (a : list V) (size : nat) (w : desk) : option desk :=
  let path := plot_path (index w) in
  w <- to_file a size path (next_index w) ;; Some (run_file pattern path w).
End Plot.
(** sp_plot_samples, plot.c:54-65: use_steps is 0 *)
Definition plot_samples (format : R -> list Z) can_open (a : list R) (size : nat) (w : desk) : option desk := plot format can_open pattern_lines a size w.
(** sp_plot_times, plot.c:66-77: use_steps is 1 *)
Definition plot_times can_open (a : list Z) (size : nat) (w : desk) : option desk := plot decimal can_open pattern_steps a size w.

(** sp_plot_spectrum_to_file, plot.c:80-104. [m1], [m2]: the allocations succeed, [ok]: the allocations in sp_fft *)
Definition spectrum_to_file (format : R -> list Z) (can_open : list Z -> bool) (junk : nat -> list R) (m1 m2 : bool) (ok : list nat -> bool) (a : list R) (size : nat) (path : list Z) (w : desk) : option desk :=
  let leave n := mkdesk (files w) (index w) (commands w) (regions w + n) in
  if negb m1 then Some w
  else if negb m2 then Some (leave 1)
  else
    _ <- need (size <=? length a) ;;
    '(status, (real, imag)) <- sp_fft junk ok size (firstn size a, repeat 0%R size) ;;
    if negb (status =? 0)%Z then Some (leave 2)
    else
      _ <- need (can_open path) ;;
      content <- for_ 0 size (fun i c => x <- aget real i ;; y <- aget imag i ;; Some (c ++ format (2 * (sqrt (x * x + y * y) / INR size))%R ++ [10]%Z)) [] ;;
      Some (set_file w path content).
(** sp_plot_spectrum, plot.c:105-117 *)
Definition plot_spectrum format can_open junk m1 m2 ok (a : list R) (size : nat) (w : desk) : option desk :=
  let path := plot_path (index w) in
  w <- spectrum_to_file format can_open junk m1 m2 ok a size path (next_index w) ;; Some (run_file pattern_steps path w).

(** sp_render_plot, P/main.c:397-412. [cc]: sp_channel_count. The block is not freed *)
Definition render_plot (D : Type) (zero : R) prepare generate (format : R -> list Z) (can_open : list Z -> bool) (e : event D) (cc : nat) (h : heap D) (w : desk) : option (bool * heap D * desk) :=
  match (if ev_end D e =? 0 then if ev_prepare D e then option_map (prepared D) (prepare e) else Some e else Some e) with
  | None => Some (false, h, w)
  | Some e =>
    '(ok, block, h) <- render_range_block R D zero prepare generate e 0 (ev_end D e) h ;;
    if negb ok then Some (false, h, w)
    else
      _ <- need (0 <? cc) ;;
      w <- plot_samples format can_open (map (fun fr => fr 0) block) (ev_end D e) w ;; Some (true, h, w)
  end.
