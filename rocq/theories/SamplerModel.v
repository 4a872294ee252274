(** * Model of src/input: samplers. *)
From Verif Require Import Base Utf8.

(** [&v[a..b]]: panics unless [a <= b <= v.len()] *)
Definition slice {A} (v : list A) (a b : nat) : outcome (list A) :=
  _ <- assert_that ((a <=? b) && (b <=? length v)) ;; Ret (firstn (b - a) (skipn a v)).

(** ** src/input/util.rs *)
(** src/input/util.rs:20-24, the loop of [find_paragraph_end]; [||] evaluates
    [data[pos - 2]] only if [data[pos - 1]] is a newline *)
Fixpoint paragraph_loop (data : bstr) (pos : nat) : outcome nat :=
  match pos with
  | S ((S p2) as p1) =>
      a <- idx data p1 ;;
      if negb (Byte.eqb a x0a) then paragraph_loop data p1
      else b <- idx data p2 ;;
           if negb (Byte.eqb b x0a) then paragraph_loop data p1 else Ret pos
  | _ => Ret pos
  end.

(** src/input/util.rs:20-27 [find_paragraph_end] *)
Definition find_paragraph_end (data : bstr) (stop : nat) : outcome nat :=
  pos <- paragraph_loop data stop ;; Ret (if pos <? 2 then stop else pos).

(** src/input/util.rs:1-3 [is_char_start] *)
Definition is_char_start (b : byte) : bool := (b2n b <? 128) || (192 <=? b2n b).

(** src/input/util.rs:6-9: skip continuation bytes; the loop guard keeps the
    index in range, so the rest of the slice is the loop state *)
Fixpoint skip_cont (data : bstr) : nat :=
  match data with
  | b :: r => if is_char_start b then 0 else S (skip_cont r)
  | [] => 0
  end.

(** src/input/util.rs:13-15 *)
Fixpoint back_to_start (data : bstr) (start : nat) (stop : nat) : outcome nat :=
  match stop with
  | O => Ret 0
  | S stop' =>
      if start <? stop then
        b <- idx data stop ;;
        if negb (is_char_start b) then back_to_start data start stop' else Ret stop
      else Ret stop
  end.

(** src/input/util.rs:5-18 [extract_valid_utf8_slice] *)
Definition extract_valid_utf8_slice (data : bstr) : outcome bstr :=
  let start := skip_cont data in
  let stop := length data in
  last <- checked_sub stop 1 ;;
  b <- idx data last ;;
  stop' <- (if 128 <=? b2n b then back_to_start data start last else Ret stop) ;;
  slice data start stop'.

(** ** src/input/memory_sampler.rs *)
(** src/input/memory_sampler.rs:86-97 [MemoryIterator::next]: yields the slice
    [start..position]; the sample is its lossy decoding (sample.rs:13-18) *)
Definition memory_next (data : bstr) (chunk pos : nat) : outcome (option (bstr * nat)) :=
  if pos <? length data then
    let start := pos in
    let pos1 := Nat.min (start + chunk) (length data) in
    para <- find_paragraph_end data pos1 ;;
    let pos2 := if (pos1 <? length data) && (start <? para) then para else pos1 in
    s <- slice data start pos2 ;;
    Ret (Some (s, pos2))
  else Ret None.

(** Running the iterator to its end. *)
Fixpoint memory_slices (fuel : nat) (data : bstr) (chunk pos : nat) : outcome (list bstr) :=
  match fuel with
  | O => OutOfFuel
  | S f =>
      r <- memory_next data chunk pos ;;
      match r with
      | None => Ret []
      | Some (s, pos') => rest <- memory_slices f data chunk pos' ;; Ret (s :: rest)
      end
  end.

(** The samples: src/input/sample.rs:13-18 [Sample::from_bytes] of each slice. *)
Definition memory_samples (fuel : nat) (data : bstr) (chunk : nat) : outcome (list bstr) :=
  l <- memory_slices fuel data chunk 0 ;; Ret (map utf8_lossy l).

(** src/input/memory_sampler.rs:22-57 [sample_from_file].
    [read_until(10, ..)]: the next line with its newline, or the rest. *)
Fixpoint read_line (data : bstr) : bstr * bstr :=
  match data with
  | [] => ([], [])
  | b :: r => if Byte.eqb b x0a then ([b], r) else let '(l, r') := read_line r in (b :: l, r')
  end.

Definition ends_blank (p : bstr) : bool :=
  match rev p with a :: b :: _ => Byte.eqb a x0a && Byte.eqb b x0a | _ => false end.

Definition starts_newline (l : bstr) : bool :=
  match l with b :: _ => Byte.eqb b x0a | [] => false end.

Section Subsample.
(** [below taken read]: outcome of the floating point comparison
    [taken as f64 / read as f64 < target_share] (lines 38, 51). *)
Variable below : nat -> nat -> bool.

(** lines 34-49; state: collected data, current paragraph, read_bytes *)
Fixpoint subsample_loop (fuel : nat) (rest data paragraph : bstr) (nread : nat)
  : outcome (bstr * bstr * nat) :=
  match fuel with
  | O => OutOfFuel
  | S f =>
      match read_line rest with
      | ([], _) => Ret (data, paragraph, nread)
      | (line, rest') =>
          if negb (starts_newline line) && ends_blank paragraph then
            let data' := if below (length data) nread then data ++ paragraph else data in
            subsample_loop f rest' data' line (nread + length paragraph)
          else subsample_loop f rest' data (paragraph ++ line) nread
      end
  end.

(** lines 22-56: the data of the resulting sampler; at most one line per byte,
    so [S (length file)] iterations are enough *)
Definition subsample (file : bstr) : outcome bstr :=
  '(data, paragraph, nread) <- subsample_loop (S (length file)) file [] [] 0 ;;
  Ret (if below (length data) nread then data ++ paragraph else data).
End Subsample.

(** ** src/input/file_sampler.rs *)
(** src/input/sample.rs:9-11 [Sample::from_vec] *)
Definition sample_from_vec (v : bstr) : outcome bstr :=
  _ <- assert_that (utf8_valid v) ;; Ret v.

(** src/input/file_sampler.rs:97-113 [FileIterator::next] without a sample
    limit.  [got] is the number of bytes [read] returns (any number from 1 to
    the smaller of the buffer size and what is left; 0 at end of file).  File
    errors are not modelled. *)
Definition file_next (file : bstr) (sample_size pos got : nat) : outcome (option (bstr * nat)) :=
  if got =? 0 then Ret None else
  let buffer := firstn got (skipn pos file) in
  if got <? sample_size then
    s <- sample_from_vec buffer ;; Ret (Some (s, pos + got))
  else
    stop <- find_paragraph_end buffer got ;;
    if stop <? got then
      s <- sample_from_vec (firstn stop buffer) ;; Ret (Some (s, pos + got - (got - stop)))
    else s <- sample_from_vec buffer ;; Ret (Some (s, pos + got)).

(** What [read] may return at a position. *)
Definition read_ok (file : bstr) (sample_size pos got : nat) : Prop :=
  got <= Nat.min sample_size (length file - pos) /\
  (got = 0 -> Nat.min sample_size (length file - pos) = 0).

(** Running the iterator to its end; [reads pos] is what the read at position
    [pos] returns (positions never repeat, so this covers every behaviour). *)
Fixpoint file_samples (fuel : nat) (reads : nat -> nat) (file : bstr) (sample_size pos : nat)
  : outcome (list bstr) :=
  match fuel with
  | O => OutOfFuel
  | S f =>
      r <- file_next file sample_size pos (reads pos) ;;
      match r with
      | None => Ret []
      | Some (s, pos') => rest <- file_samples f reads file sample_size pos' ;; Ret (s :: rest)
      end
  end.

(** src/input/file_sampler.rs:78-95 [FileIterator::next] with a sample limit:
    [start] is the random position, [got] the bytes read; returns the sample. *)
Definition file_random_start (file : bstr) (sample_size start : nat) : outcome unit :=
  max_seek <- checked_sub (length file) sample_size ;;
  _ <- assert_that (0 <? max_seek) ;;   (* gen_range panics on an empty range *)
  assert_that (start <? max_seek).      (* what gen_range returns *)
Definition file_next_random (file : bstr) (sample_size start got : nat) : outcome bstr :=
  _ <- file_random_start file sample_size start ;;
  let buffer := firstn got (skipn start file) in
  stop <- find_paragraph_end buffer (length buffer) ;;
  sample_from_vec (firstn stop buffer).

(** src/input/file_sampler.rs:33-52, 74-95: running the iterator with a limit
    of [k] samples to its end; [draw i] is the random position of the [i]-th
    sample and what its read returns. *)
Definition file_random_samples (file : bstr) (sample_size k : nat) (draw : nat -> nat * nat) : outcome (list bstr) :=
  mmap (fun i => file_next_random file sample_size (fst (draw i)) (snd (draw i))) (seq 0 k).

(** src/input/file_sampler.rs:54-60 [FileSampler::total_size] *)
Definition file_total_size (file : bstr) (sample_size : nat) (max_samples : option nat) : nat :=
  match max_samples with Some k => sample_size * k | None => length file end.

(** ** src/input/preloaded_sampler.rs *)
(** src/input/preloaded_sampler.rs:18-24: sample size and number of samples *)
Definition preload_plan (len sample_size max_samples : nat) : nat * nat :=
  if len <=? sample_size then (len, 1)
  else if len <=? sample_size * max_samples then (sample_size, len / sample_size)
  else (sample_size, max_samples).

(** src/input/preloaded_sampler.rs:37-53: chunk [i].  [read] is taken to fill
    the buffer as far as the file reaches. *)
Definition preload_chunk (file : bstr) (size step i : nat) : outcome bstr :=
  let chunk := firstn size (skipn (i * step) file) in
  para <- find_paragraph_end chunk (length chunk) ;;
  chunk' <- slice chunk 0 para ;;
  valid <- extract_valid_utf8_slice chunk' ;;
  Ret (if length valid =? length chunk' then chunk' else valid).

(** src/input/preloaded_sampler.rs:14-61 [PreloadedSampler::new]; the division
    on line 31 panics for zero samples.  Returns chunks and total size. *)
Definition preload (file : bstr) (sample_size max_samples : nat) : outcome (list bstr * nat) :=
  let '(size, n) := preload_plan (length file) sample_size max_samples in
  _ <- assert_that (negb (n =? 0)) ;;
  let step := length file / n in
  chunks <- mmap (preload_chunk file size step) (seq 0 n) ;;
  Ret (chunks, sum (map (@length byte) chunks)).

(** src/input/preloaded_sampler.rs:84-94: the samples yielded *)
Definition preload_samples (chunks : list bstr) : list bstr := map utf8_lossy chunks.
