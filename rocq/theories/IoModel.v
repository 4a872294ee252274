(** * Model of reading files when reads may be short, interrupted or fail.

    The other models read whole files.  Here every call of [read] and [seek] is
    answered by the operating system from a script: any number of bytes, an
    interruption ([ErrorKind::Interrupted]) or an error.  A script that has run
    out stands for a call that has not returned: the outcome is then
    [OutOfFuel]. *)
From Verif Require Import Base Utf8 SamplerModel ProcessingModel CountModel.

(** [Got k]: [k + 1] bytes, as far as the buffer and the file allow (for a
    seek: success); [Interrupted] and [Failed]: an error. *)
Inductive answer := Got (k : nat) | Interrupted | Failed.

Inductive io_result := Data (d : bstr) | IntrErr | OtherErr.

(** [File::read] at position [pos] with a buffer of [n] bytes. *)
Definition os_read (file : bstr) (pos n : nat) (script : list answer) : outcome (io_result * list answer) :=
  match script with
  | [] => OutOfFuel
  | Got k :: s => Ret (Data (firstn (Nat.min n (S k)) (skipn pos file)), s)
  | Interrupted :: s => Ret (IntrErr, s)
  | Failed :: s => Ret (OtherErr, s)
  end.

(** [File::seek(..).unwrap()] *)
Definition os_seek (script : list answer) : outcome (list answer) :=
  match script with
  | [] => OutOfFuel
  | Got _ :: s => Ret s
  | _ :: _ => Panic
  end.

(** ** [std::io::BufReader] *)
Record br := { br_buf : bstr; br_pos : nat; br_script : list answer }.

(** [BufReader::fill_buf]: reads only if the buffer is empty. *)
Definition fill_buf (cap : nat) (file : bstr) (r : br) : outcome (io_result * br) :=
  match br_buf r with
  | [] =>
      '(res, s) <- os_read file (br_pos r) cap (br_script r) ;;
      match res with
      | Data d => Ret (Data d, {| br_buf := d; br_pos := br_pos r + length d; br_script := s |})
      | e => Ret (e, {| br_buf := []; br_pos := br_pos r; br_script := s |})
      end
  | b => Ret (Data b, r)
  end.

(** [memchr(10, available)]: the bytes up to and including the first newline, and the others. *)
Fixpoint cut_newline (d : bstr) : option (bstr * bstr) :=
  match d with
  | [] => None
  | b :: r => if Byte.eqb b x0a then Some ([b], r)
              else match cut_newline r with Some (l, r') => Some (b :: l, r') | None => None end
  end.

(** [BufRead::read_until(10, ..)]: interruptions are retried, other errors
    returned ([None]).  Every turn but the first uses up an answer. *)
Fixpoint read_until (fuel cap : nat) (file : bstr) (r : br) (acc : bstr) : outcome (option bstr * br) :=
  match fuel with
  | O => OutOfFuel
  | S f =>
      '(res, r1) <- fill_buf cap file r ;;
      match res with
      | OtherErr => Ret (None, r1)
      | IntrErr => read_until f cap file r1 acc
      | Data available =>
          match cut_newline available with
          | Some (l, rest) => Ret (Some (acc ++ l), {| br_buf := rest; br_pos := br_pos r1; br_script := br_script r1 |})
          | None =>
              let r2 := {| br_buf := []; br_pos := br_pos r1; br_script := br_script r1 |} in
              match available with
              | [] => Ret (Some acc, r2)
              | _ => read_until f cap file r2 (acc ++ available)
              end
          end
      end
  end.
Definition read_line_io (cap : nat) (file : bstr) (r : br) : outcome (option bstr * br) :=
  read_until (S (S (length (br_script r)))) cap file r [].

(** The loops of the program over the lines of a file: [step] handles a line
    and may end the loop, [fin] is the end of the file, [fail] an error. *)
Fixpoint lines_io {S R} (step : S -> bstr -> outcome (S + R)) (fin fail : S -> outcome R)
  (fuel cap : nat) (file : bstr) (r : br) (s : S) : outcome R :=
  match fuel with
  | O => OutOfFuel
  | Datatypes.S f =>
      '(l, r') <- read_line_io cap file r ;;
      match l with
      | None => fail s
      | Some [] => fin s
      | Some line =>
          x <- step s line ;;
          match x with
          | inl s' => lines_io step fin fail f cap file r' s'
          | inr v => Ret v
          end
      end
  end.

Definition open_br (script : list answer) : br := {| br_buf := []; br_pos := 0; br_script := script |}.

(** src/input/memory_sampler.rs:33-52 [sample_from_file]: the body of the loop;
    [read_until(..).unwrap()] *)
Definition subsample_step (below : nat -> nat -> bool) (s : bstr * bstr * nat) (line : bstr)
  : outcome ((bstr * bstr * nat) + (bstr * bstr * nat)) :=
  let '(data, paragraph, nread) := s in
  if negb (starts_newline line) && ends_blank paragraph then
    Ret (inl (if below (length data) nread then data ++ paragraph else data, line, nread + length paragraph))
  else Ret (inl (data, paragraph ++ line, nread)).
Definition subsample_io (below : nat -> nat -> bool) (cap : nat) (script : list answer) (file : bstr) : outcome bstr :=
  '(data, paragraph, nread) <-
     lines_io (subsample_step below) (fun s => Ret s) (fun _ => Panic) (S (length file)) cap file (open_br script) ([], [], 0) ;;
  Ret (if below (length data) nread then data ++ paragraph else data).

(** src/main.rs:62-84 [count_chars]: the body of the loop; an error of
    [read_line] panics *)
Definition count_step (s : nat * (list nat * list (N * nat))) (line : bstr)
  : outcome ((nat * (list nat * list (N * nat))) + (nat * (list nat * list (N * nat)))) :=
  let '(total, st) := s in
  _ <- assert_that (utf8_valid line) ;;
  st' <- mfold count_char (chars line) st ;;
  Ret (inl (total + length (chars line), st')).
Definition count_chars_io (cap : nat) (script : list answer) (file : bstr) : outcome (nat * list (nat * nat) * N) :=
  '(total, s) <- lines_io count_step (fun s => Ret s) (fun _ => Panic) (S (length file)) cap file (open_br script) (0, (repeat 0 256, [])) ;;
  Ret (total, filter (fun p => 0 <? snd p) (enum (fst s)), max_key (snd s)).

(** src/processing.rs:131-140 [process_file]: the body of the loop; [line?]
    returns the error *)
Definition process_file_step (U : unicode) (cap : nat) (w : bufw) (line : bstr) : outcome (bufw + (bool * bufw)) :=
  if negb (utf8_valid line) then Ret (inr (false, w)) else
  processed <- process_str U (strip_line line) ;;
  let '(ok, w1) := bw_write cap w processed in
  if negb ok then Ret (inr (false, w1)) else
  let '(ok2, w2) := bw_write cap w1 [x0a] in
  if negb ok2 then Ret (inr (false, w2)) else Ret (inl w2).
Definition process_file_io (U : unicode) (cap rcap : nat) (script : list response) (rscript : list answer) (file : bstr)
  : outcome (bool * bstr) :=
  '(ok, w) <- lines_io (process_file_step U cap) (fun w => Ret (true, w)) (fun w => Ret (false, w))
                (S (length file)) rcap file (open_br rscript) {| bw_buf := []; bw_sink := []; bw_script := script |} ;;
  Ret (ok, bw_drop w).

(** ** Reading a whole file *)
(** [Read::read_to_end] (for [std::fs::read], src/input/memory_sampler.rs:15) and
    the byte iterator below [serde_json::from_reader] (src/main.rs:111): reads
    until a read returns nothing, with buffers of any positive sizes
    [S (size i)]; interruptions are retried. *)
Fixpoint read_to_end (fuel : nat) (size : nat -> nat) (i : nat) (file : bstr) (pos : nat) (script : list answer) (acc : bstr)
  : outcome (option bstr) :=
  match fuel with
  | O => OutOfFuel
  | S f =>
      '(res, s) <- os_read file pos (S (size i)) script ;;
      match res with
      | OtherErr => Ret None
      | IntrErr => read_to_end f size i file pos s acc
      | Data [] => Ret (Some acc)
      | Data d => read_to_end f size (S i) file (pos + length d) s (acc ++ d)
      end
  end.

(** the unwrapped result: src/input/memory_sampler.rs:15, src/main.rs:111 *)
Definition read_file_io (size : nat -> nat) (script : list answer) (file : bstr) : outcome bstr :=
  r <- read_to_end (S (length script)) size 0 file 0 script [] ;; unwrap r.

(** ** src/input/file_sampler.rs *)
(** src/input/file_sampler.rs:97-113: [read] and [seek] are unwrapped, so an
    interruption panics, too. *)
Definition file_next_io (file : bstr) (sample_size pos : nat) (script : list answer)
  : outcome (option (bstr * nat) * list answer) :=
  '(res, s1) <- os_read file pos sample_size script ;;
  match res with
  | Data buffer =>
      let got := length buffer in
      if got =? 0 then Ret (None, s1) else
      if got <? sample_size then
        s <- sample_from_vec buffer ;; Ret (Some (s, pos + got), s1)
      else
        stop <- find_paragraph_end buffer got ;;
        if stop <? got then
          s2 <- os_seek s1 ;;
          s <- sample_from_vec (firstn stop buffer) ;; Ret (Some (s, pos + got - (got - stop)), s2)
        else s <- sample_from_vec buffer ;; Ret (Some (s, pos + got), s1)
  | _ => Panic
  end.

(** Running the iterator to its end. *)
Fixpoint file_samples_io (fuel : nat) (file : bstr) (sample_size pos : nat) (script : list answer) : outcome (list bstr) :=
  match fuel with
  | O => OutOfFuel
  | S f =>
      '(r, s) <- file_next_io file sample_size pos script ;;
      match r with
      | None => Ret []
      | Some (x, pos') => rest <- file_samples_io f file sample_size pos' s ;; Ret (x :: rest)
      end
  end.

(** src/input/file_sampler.rs:78-95, with a limit of samples; [starts i] is the
    [i]-th random position. *)
Fixpoint file_random_samples_io (file : bstr) (sample_size : nat) (starts : nat -> nat) (i k : nat) (script : list answer)
  : outcome (list bstr) :=
  match k with
  | O => Ret []
  | S k' =>
      _ <- file_random_start file sample_size (starts i) ;;
      s1 <- os_seek script ;;
      '(res, s2) <- os_read file (starts i) sample_size s1 ;;
      match res with
      | Data buffer =>
          stop <- find_paragraph_end buffer (length buffer) ;;
          x <- sample_from_vec (firstn stop buffer) ;;
          rest <- file_random_samples_io file sample_size starts (S i) k' s2 ;;
          Ret (x :: rest)
      | _ => Panic
      end
  end.

(** ** src/input/preloaded_sampler.rs *)
(** src/input/preloaded_sampler.rs:37-53, 55-56: chunks [i .. i + k - 1]; the
    chunk is what one [read] returned. *)
Fixpoint preload_chunks_io (file : bstr) (size step i k : nat) (script : list answer) : outcome (list bstr) :=
  match k with
  | O => Ret []
  | S k' =>
      s1 <- os_seek script ;;
      '(res, s2) <- os_read file (i * step) size s1 ;;
      match res with
      | Data chunk =>
          para <- find_paragraph_end chunk (length chunk) ;;
          chunk' <- slice chunk 0 para ;;
          valid <- extract_valid_utf8_slice chunk' ;;
          rest <- preload_chunks_io file size step (S i) k' s2 ;;
          Ret ((if length valid =? length chunk' then chunk' else valid) :: rest)
      | _ => Panic
      end
  end.
(** src/input/preloaded_sampler.rs:14-61 [PreloadedSampler::new] *)
Definition preload_io (file : bstr) (sample_size max_samples : nat) (script : list answer) : outcome (list bstr * nat) :=
  let '(size, n) := preload_plan (length file) sample_size max_samples in
  _ <- assert_that (negb (n =? 0)) ;;
  let step := length file / n in
  chunks <- preload_chunks_io file size step 0 n script ;;
  Ret (chunks, sum (map (@length byte) chunks)).
