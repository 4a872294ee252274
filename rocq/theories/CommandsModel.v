(** * Model of the commands in src/main.rs and of the files they read and write. *)
From Coq Require Import String.
From Verif Require Import Base Utf8 TokenSetModel TokenizerModel BatchModel JsonModel JsonText SamplerModel
  ProcessingModel CacheModel OptBytesModel OptimizeModel MainModel.
Local Open Scope list_scope.
Local Notation length := List.length.

(** src/main.rs:99-107 [read_token_set], for the text of the file; errors of the
    JSON reader are unwrapped *)
Definition read_token_set (text : bstr) : outcome tokenset :=
  v <- unwrap (parse_json text) ;; ts_from_json v.

(** src/optimize.rs:287-292 [save_tokens]: name and content of the file *)
Definition file_name (ts : tokenset) : string := (ts_name ts ++ ".json")%string.
Definition set_text (ts : tokenset) : outcome bstr := v <- ts_to_json ts ;; Ret (show v).

(** src/main.rs:138-141, 144-149 [save_tokens]: the content, for statistics *)
Definition stats_text (ratio : nat -> nat -> bstr) (s : stats) : outcome bstr :=
  v <- stats_to_json (st_token_set s) (stats_object ratio s) ;; Ret (show v).

(** ** Files

    A directory of token sets: file names and contents. *)
Definition dir := string -> option bstr.
Definition put_file (d : dir) (name : string) (text : bstr) : dir :=
  fun x => if String.eqb x name then Some text else d x.

(** [std::fs::write]: the file is created or truncated, then the text is
    written in pieces.  The directory as other programs, or the next run after a crash,
    can see it: *)
Inductive during_write (d : dir) (name : string) (text : bstr) : dir -> Prop :=
| dw_before : during_write d name text d
| dw_part k : k <= length text -> during_write d name text (put_file d name (firstn k text)).

(** A sequence of writes, seen at any moment: some are complete, one may be
    under way. *)
Fixpoint put_files (d : dir) (ws : list (string * bstr)) : dir :=
  match ws with
  | [] => d
  | (name, text) :: r => put_files (put_file d name text) r
  end.
Inductive during_writes (d : dir) (ws : list (string * bstr)) : dir -> Prop :=
| dws_between done rest : ws = done ++ rest -> during_writes d ws (put_files d done)
| dws_in done name text rest d' : ws = done ++ (name, text) :: rest ->
    during_write (put_files d done) name text d' -> during_writes d ws d'.

(** ** [maybe_process_file] *)
(** src/main.rs:27-46: the data to tokenize.  [script]: what writing the
    temporary file does, see [process_file]; an error is unwrapped. *)
Definition maybe_process (U : unicode) (script : list response) (raw : bstr) (processed : option bstr) (p : processing)
  : outcome bstr :=
  match p, processed with
  | TokenSetModel.Raw, _ => Ret raw
  | CapsWords, Some f => Ret f
  | CapsWords, None =>
      '(ok, out) <- process_file U default_capacity script raw ;;
      _ <- assert_that ok ;; Ret out
  end.

(** ** process: src/main.rs:47-52 [process]

    The directory afterwards and whether the command ended normally (otherwise it
    panics).  The data file is opened first, then the output file is created or
    truncated; if both are one file nothing is left to read.  [script]: what
    writing the output does, see [process_file]; a kill of the program is a
    script that refuses from some moment on. *)
Definition process_command (U : unicode) (script : list response) (d : dir) (data output : string) : dir * bool :=
  match d data with
  | None => (d, false)
  | Some _ =>
      let d1 := put_file d output [] in
      match d1 data with
      | None => (d1, false)
      | Some raw =>
          match process_file U default_capacity script raw with
          | Ret (ok, sink) => (put_file d1 output sink, ok)
          | _ => (d1, false)
          end
      end
  end.

(** ** convert-tokens: src/main.rs:109-142 [load_save_tokens]

    [converts .. tokens name text]: with the token set file [tokens] the command
    writes [text] to the file [name] and returns. *)
Section Commands.
Variables (U : unicode) (script : list response) (threads : nat) (ratio : nat -> nat -> bstr) (reads : nat -> nat).

Inductive converts (raw : bstr) (processed : option bstr) (tokens : bstr) : string -> bstr -> Prop :=
| converts_to ts data samples s text :
    read_token_set tokens = Ret ts ->
    maybe_process U script raw processed (ts_processing ts) = Ret data ->
    full_samples reads data = Ret samples ->
    par_result ts threads (full_size data) samples (Some (length raw)) s ->
    stats_text ratio s = Ret text ->
    converts raw processed tokens (file_name ts) text.

(** ** optimize without --min-data-size: src/main.rs:199-248 [optimize] *)
Definition two34 : N := 17179869184.

(** src/main.rs:235-244: the sampler *)
Definition optimize_samples (raw data : bstr) : outcome (list bstr) :=
  if (N.of_nat (length raw) <? two34)%N
  then memory_samples (S (length data)) data (N.to_nat mega)
  else full_samples reads data.

(** src/main.rs:213-218: the starting set *)
Definition input_set (input : option bstr) : outcome (option tokenset) :=
  match input with
  | None => Ret None
  | Some text => ts <- read_token_set text ;; Ret (Some ts)
  end.

(** The states of the command once the search has begun.  [w] lists the files
    written so far (those complete or under way), [m] is the state of the search. *)
Inductive optimize_run order clock rounds n (p : processing) (t : token_type) (raw : bstr) (processed input : option bstr)
  : machine stats -> Prop :=
| orun data pre samples m :
    maybe_process U script raw processed p = Ret data ->
    input_set input = Ret pre ->
    optimize_samples raw data = Ret samples ->
    steps threads (full_size data) samples (Some (length raw))
      (mkMachine [] [] (optimize_tokenset order clock rounds n p t pre)) m ->
    optimize_run order clock rounds n p t raw processed input m.

(** the files the search has saved, and after its end the result
    (src/main.rs:247) *)
Definition written (m : machine stats) : outcome (list (string * bstr)) :=
  saved <- mmap (fun ts => text <- set_text ts ;; Ret (file_name ts, text)) (m_saved m) ;;
  match m_prog m with
  | PDone (Ret s) => text <- stats_text ratio s ;; Ret (saved ++ [(file_name (st_token_set s), text)])
  | _ => Ret saved
  end.

(** ** optimize with --min-data-size: src/main.rs:233-234 and 151-197

    [increasing .. x saved]: the loop of [optimize_with_increasing_data] (see [istep] in
    MainModel) is at [x] and the sets [saved] have been saved so far; a round saves
    what its search saves. *)
Section Increasing.
Variables (order : smap nat -> list bstr -> list bstr) (clock : N -> nat -> bool).
Variables (near : stats -> stats -> bool) (below : N -> nat -> nat -> bool).
Variables (rounds n : nat) (p : processing) (t : token_type) (data : bstr) (init : option nat) (min : N) (pre : option tokenset).

Inductive increasing : istate -> list tokenset -> Prop :=
| inc_start : increasing (IRun min pre) []
| inc_round size cur saved total samples m s full f :
    increasing (IRun size cur) saved -> (size < full_size data)%N ->
    (forall ts, cur = Some ts -> exists tk, tokenizer_new ts = Ret tk) ->
    sampler below data size = Ret (total, samples) ->
    steps threads total samples init
      (mkMachine [] [] (optimize_tokenset order (clock size) rounds n p t cur)) m ->
    m_prog m = PDone (Ret s) ->
    full_samples reads data = Ret full -> par_result (st_token_set s) threads (full_size data) full init f ->
    increasing (if (large <? size)%N && near s f then IReturned f else IRun (size * 2) (Some (st_token_set s)))
      (saved ++ m_saved m).

(** A moment of the run: between rounds (possibly at the end), or within one. *)
Inductive increasing_moment : option stats -> list tokenset -> Prop :=
| im_between size cur saved : increasing (IRun size cur) saved -> increasing_moment None saved
| im_within size cur saved total samples m :
    increasing (IRun size cur) saved -> (size < full_size data)%N ->
    (forall ts, cur = Some ts -> exists tk, tokenizer_new ts = Ret tk) ->
    sampler below data size = Ret (total, samples) ->
    steps threads total samples init
      (mkMachine [] [] (optimize_tokenset order (clock size) rounds n p t cur)) m ->
    increasing_moment None (saved ++ m_saved m)
| im_end f saved : increasing (IReturned f) saved -> increasing_moment (Some f) saved.
End Increasing.

(** The files written up to a moment; the result is written at the end
    (src/main.rs:247). *)
Definition increasing_written (result : option stats) (sets : list tokenset) : outcome (list (string * bstr)) :=
  saved <- mmap (fun ts => text <- set_text ts ;; Ret (file_name ts, text)) sets ;;
  match result with
  | Some f => text <- stats_text ratio f ;; Ret (saved ++ [(file_name (st_token_set f), text)])
  | None => Ret saved
  end.

(** A whole run of the command: the moments it goes through. *)
Inductive optimize_increasing order clock near below rounds n p t (raw : bstr) (processed input : option bstr) (min : N)
  : option stats -> list tokenset -> Prop :=
| oinc data pre result saved :
    maybe_process U script raw processed p = Ret data ->
    input_set input = Ret pre ->
    increasing_moment order clock near below rounds n p t data (Some (length raw)) min pre result saved ->
    optimize_increasing order clock near below rounds n p t raw processed input min result saved.
End Commands.
