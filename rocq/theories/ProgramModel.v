(** * How a run of the program ends: opening files, writing files, exit status.

    ArgsModel.v gives the states of the files during a run ([program]); here is how a run
    ends, with the errors of opening and of writing files, which the code all unwraps. *)
From Coq Require Import String.
From Verif Require Import Base TokenSetModel TokenizerModel BatchModel ProcessingModel CountModel SamplerModel CacheModel OptimizeModel
  JsonModel MainModel CommandsModel ArgsModel.
Local Open Scope list_scope.
Local Notation length := List.length.

(** Exit status 0, or a panic (101) or refused arguments (2). *)
Inductive ending := Normal | Failed.

(** What the rest of the system does: the Unicode tables, the answers of the disk
    to the writes of processed text, the number of threads, the text of quotients, the
    lengths of reads, the order of the unstable sort, the clock, the two floating
    point tests, the paths at which [fs::write] works. [x_rounds] is the fuel of the model. *)
Record system := mkSystem {
  x_unicode : unicode;
  x_script : list response;
  x_threads : nat;
  x_ratio : nat -> nat -> bstr;
  x_reads : nat -> nat;
  x_order : smap nat -> list bstr -> list bstr;
  x_clock : N -> nat -> bool;
  x_near : stats -> stats -> bool;
  x_below : N -> nat -> nat -> bool;
  x_rounds : nat;
  x_can_write : string -> bool
}.

Section Runs.
Variable X : system.

(** src/main.rs:27-46 [maybe_process_file], [std::fs::metadata(filename_raw).unwrap()]
    (119, 211) and the opening of the file to tokenize (memory_sampler.rs:15,
    file_sampler.rs:24, 34): the original data and the data to tokenize.
    With CapsWords and a processed file only the size of the original is asked for. *)
Definition open_data (fs : dir) (data : string) (pd : option string) (p : processing) : outcome (bstr * bstr) :=
  raw <- unwrap (fs data) ;;
  content <- match p, pd with
             | Raw, _ => Ret raw
             | CapsWords, Some f => unwrap (fs f)
             | CapsWords, None => maybe_process (x_unicode X) (x_script X) raw None CapsWords
             end ;;
  Ret (raw, content).

(** src/main.rs:99-107 [read_token_set], with [File::open(path).expect(..)] *)
Definition open_token_set (fs : dir) (path : string) : outcome tokenset :=
  text <- unwrap (fs path) ;; read_token_set text.

(** src/main.rs:213-218 *)
Definition open_input (fs : dir) (input : option string) : outcome (option tokenset) :=
  match input with
  | None => Ret None
  | Some path => ts <- open_token_set fs path ;; Ret (Some ts)
  end.

(** [std::fs::write(..).unwrap()], one after the other: the first that does not
    work ends the run.  (A write works or changes nothing; for files cut short by a kill see
    [during_writes].) *)
Fixpoint save_files (fs : dir) (ws : list (string * bstr)) : dir * bool :=
  match ws with
  | [] => (fs, true)
  | (path, text) :: r => if x_can_write X path then save_files (put_file fs path text) r else (fs, false)
  end.

Definition status (ok : bool) : ending := if ok then Normal else Failed.

(** src/main.rs:109-142 [load_save_tokens], up to the tokenization: the set, the size of the
    original data, the data and its samples.  (The token set is read before the data.) *)
Definition start_convert (fs : dir) (data : string) (pd : option string) (input : string)
  : outcome (tokenset * nat * bstr * list bstr) :=
  ts <- open_token_set fs input ;;
  '(raw, content) <- open_data fs data pd (ts_processing ts) ;;
  _ <- tokenizer_new ts ;;
  samples <- full_samples (x_reads X) content ;;
  Ret (ts, length raw, content, samples).

(** src/main.rs:199-244 [optimize], up to the search *)
Definition start_optimize (fs : dir) (data : string) (pd : option string) (p : processing) (input : option string)
  : outcome (nat * bstr * option tokenset * list bstr) :=
  '(raw, content) <- open_data fs data pd p ;;
  pre <- open_input fs input ;;
  samples <- optimize_samples (x_reads X) raw content ;;
  Ret (length raw, content, pre, samples).

(** ... and with --min-data-size *)
Definition start_increasing (fs : dir) (data : string) (pd : option string) (p : processing) (input : option string)
  : outcome (nat * bstr * option tokenset) :=
  '(raw, content) <- open_data fs data pd p ;;
  pre <- open_input fs input ;;
  Ret (length raw, content, pre).

(** The moments of the search of an optimization. *)
Definition searching (n : nat) (p : processing) (t : token_type) (size : nat) (content : bstr) (pre : option tokenset) (samples : list bstr)
  : machine stats -> Prop :=
  steps (x_threads X) (full_size content) samples (Some size)
    (mkMachine [] [] (optimize_tokenset (x_order X) (x_clock X 0%N) (x_rounds X) n p t pre)).

Definition inc (n : nat) (p : processing) (t : token_type) (size : nat) (content : bstr) (min : N) (pre : option tokenset)
  : istate -> list tokenset -> Prop :=
  increasing (x_threads X) (x_reads X) (x_order X) (x_clock X) (x_near X) (x_below X) (x_rounds X) n p t content (Some size) min pre.
Definition inc_moment (n : nat) (p : processing) (t : token_type) (size : nat) (content : bstr) (min : N) (pre : option tokenset)
  : option stats -> list tokenset -> Prop :=
  increasing_moment (x_threads X) (x_reads X) (x_order X) (x_clock X) (x_near X) (x_below X) (x_rounds X) n p t content (Some size) min pre.

(** The files written before a set that [to_json] panics on (src/tokenset.rs:395-412, a sequence with
    a token that is not there). *)
Inductive no_text : list tokenset -> option stats -> list (string * bstr) -> Prop :=
| nt_set l ts rest result ws : increasing_written (x_ratio X) None l = Ret ws -> set_text ts = Panic -> no_text (l ++ ts :: rest) result ws
| nt_result l s ws : increasing_written (x_ratio X) None l = Ret ws -> stats_text (x_ratio X) s = Panic -> no_text l (Some s) ws.

Definition result_of (m : machine stats) : option stats := match m_prog m with PDone (Ret s) => Some s | _ => None end.

(** src/main.rs:310-348 [main]: how a run can end and the files it leaves.  A run that never
    ends (a tokenization that hangs, see C13) has no ending. *)
Inductive ends (fs : dir) (args : list string) : ending -> dir -> Prop :=
| end_refused : parse_args args = None -> ends fs args Failed fs
(** process; [File::create] may fail *)
| end_process data output fs' ok : parse_args args = Some (Process data output) -> x_can_write X output = true ->
    process_command (x_unicode X) (x_script X) fs data output = (fs', ok) -> ends fs args (status ok) fs'
| end_process_create data output : parse_args args = Some (Process data output) -> x_can_write X output = false ->
    ends fs args Failed fs
(** count-chars *)
| end_count data r : parse_args args = Some (CountChars data) ->
    (text <- unwrap (fs data) ;; count_chars text) = Ret r -> ends fs args Normal fs
| end_count_panic data : parse_args args = Some (CountChars data) ->
    (text <- unwrap (fs data) ;; count_chars text) = Panic -> ends fs args Failed fs
(** convert-tokens *)
| end_convert_panic data pd input tdir : parse_args args = Some (ConvertTokens data pd input tdir) ->
    start_convert fs data pd input = Panic -> ends fs args Failed fs
| end_convert data pd input tdir ts size content samples s text fs' ok :
    parse_args args = Some (ConvertTokens data pd input tdir) ->
    start_convert fs data pd input = Ret (ts, size, content, samples) ->
    par_result ts (x_threads X) (full_size content) samples (Some size) s ->
    stats_text (x_ratio X) s = Ret text ->
    save_files fs (in_dir tdir [(file_name ts, text)]) = (fs', ok) -> ends fs args (status ok) fs'
| end_convert_text data pd input tdir ts size content samples s :
    parse_args args = Some (ConvertTokens data pd input tdir) ->
    start_convert fs data pd input = Ret (ts, size, content, samples) ->
    par_result ts (x_threads X) (full_size content) samples (Some size) s ->
    stats_text (x_ratio X) s = Panic -> ends fs args Failed fs
(** optimize *)
| end_optimize_start data pd tdir p t n input : parse_args args = Some (Optimize data pd tdir p t n input None) ->
    start_optimize fs data pd p input = Panic -> ends fs args Failed fs
| end_optimize_write data pd tdir p t n input size content pre samples m ws fs' :
    parse_args args = Some (Optimize data pd tdir p t n input None) ->
    start_optimize fs data pd p input = Ret (size, content, pre, samples) ->
    searching (N.to_nat n) p t size content pre samples m -> written (x_ratio X) m = Ret ws ->
    save_files fs (in_dir tdir ws) = (fs', false) -> ends fs args Failed fs'
| end_optimize_panic data pd tdir p t n input size content pre samples m ws fs' :
    parse_args args = Some (Optimize data pd tdir p t n input None) ->
    start_optimize fs data pd p input = Ret (size, content, pre, samples) ->
    searching (N.to_nat n) p t size content pre samples m -> m_prog m = PDone Panic -> written (x_ratio X) m = Ret ws ->
    save_files fs (in_dir tdir ws) = (fs', true) -> ends fs args Failed fs'
| end_optimize_text data pd tdir p t n input size content pre samples m ws fs' :
    parse_args args = Some (Optimize data pd tdir p t n input None) ->
    start_optimize fs data pd p input = Ret (size, content, pre, samples) ->
    searching (N.to_nat n) p t size content pre samples m -> no_text (m_saved m) (result_of m) ws ->
    save_files fs (in_dir tdir ws) = (fs', true) -> ends fs args Failed fs'
| end_optimize data pd tdir p t n input size content pre samples m s ws fs' :
    parse_args args = Some (Optimize data pd tdir p t n input None) ->
    start_optimize fs data pd p input = Ret (size, content, pre, samples) ->
    searching (N.to_nat n) p t size content pre samples m -> m_prog m = PDone (Ret s) -> written (x_ratio X) m = Ret ws ->
    save_files fs (in_dir tdir ws) = (fs', true) -> ends fs args Normal fs'
(** optimize --min-data-size *)
| end_increasing_start data pd tdir p t n input min : parse_args args = Some (Optimize data pd tdir p t n input (Some min)) ->
    start_increasing fs data pd p input = Panic -> ends fs args Failed fs
| end_increasing_write data pd tdir p t n input min size content pre result saved ws fs' :
    parse_args args = Some (Optimize data pd tdir p t n input (Some min)) ->
    start_increasing fs data pd p input = Ret (size, content, pre) ->
    inc_moment (N.to_nat n) p t size content min pre result saved -> increasing_written (x_ratio X) result saved = Ret ws ->
    save_files fs (in_dir tdir ws) = (fs', false) -> ends fs args Failed fs'
(** a panic between two searches: the sizes have run out, or the given set is not accepted *)
| end_increasing_panic data pd tdir p t n input min size content pre sz cur saved ws fs' :
    parse_args args = Some (Optimize data pd tdir p t n input (Some min)) ->
    start_increasing fs data pd p input = Ret (size, content, pre) ->
    inc (N.to_nat n) p t size content min pre (IRun sz cur) saved ->
    ((full_size content <= sz)%N \/ exists ts, cur = Some ts /\ tokenizer_new ts = Panic) ->
    increasing_written (x_ratio X) None saved = Ret ws ->
    save_files fs (in_dir tdir ws) = (fs', true) -> ends fs args Failed fs'
(** a panic of a search, or after it of the sampler of the whole data *)
| end_increasing_search data pd tdir p t n input min size content pre sz cur saved total samples m ws fs' :
    parse_args args = Some (Optimize data pd tdir p t n input (Some min)) ->
    start_increasing fs data pd p input = Ret (size, content, pre) ->
    inc (N.to_nat n) p t size content min pre (IRun sz cur) saved -> (sz < full_size content)%N ->
    sampler (x_below X) content sz = Ret (total, samples) ->
    steps (x_threads X) total samples (Some size)
      (mkMachine [] [] (optimize_tokenset (x_order X) (x_clock X sz) (x_rounds X) (N.to_nat n) p t cur)) m ->
    m_prog m = PDone Panic \/ (exists s, m_prog m = PDone (Ret s)) /\ full_samples (x_reads X) content = Panic ->
    increasing_written (x_ratio X) None (saved ++ m_saved m) = Ret ws ->
    save_files fs (in_dir tdir ws) = (fs', true) -> ends fs args Failed fs'
| end_increasing_text data pd tdir p t n input min size content pre result saved ws fs' :
    parse_args args = Some (Optimize data pd tdir p t n input (Some min)) ->
    start_increasing fs data pd p input = Ret (size, content, pre) ->
    inc_moment (N.to_nat n) p t size content min pre result saved -> no_text saved result ws ->
    save_files fs (in_dir tdir ws) = (fs', true) -> ends fs args Failed fs'
| end_increasing data pd tdir p t n input min size content pre f saved ws fs' :
    parse_args args = Some (Optimize data pd tdir p t n input (Some min)) ->
    start_increasing fs data pd p input = Ret (size, content, pre) ->
    inc_moment (N.to_nat n) p t size content min pre (Some f) saved -> increasing_written (x_ratio X) (Some f) saved = Ret ws ->
    save_files fs (in_dir tdir ws) = (fs', true) -> ends fs args Normal fs'.
End Runs.
