(** * Model of src/batch_tokenize.rs: sequential and parallel tokenization. *)
From Verif Require Import Base TokenSetModel TokenizerModel.

(** src/batch_tokenize.rs:20-22: the loop over the samples *)
Definition process_all (tk : tokenizer) (samples : list bstr)
           (st : stats * list cost_state) : outcome (stats * list cost_state) :=
  mfold (fun sb x => let '(s, b) := sb in process_slice tk x s b) samples st.

(** src/batch_tokenize.rs:10-25 [tokenize_file_sync]; a sampler is the list of
    byte strings its iterator yields. *)
Definition tokenize_file_sync (ts : tokenset) (samples : list bstr) (init : option nat)
  : outcome stats :=
  tk <- tokenizer_new ts ;;
  '(s, _) <- process_all tk samples (stats_new ts init, []) ;;
  Ret s.

(** ** The parallel version as a transition system

    One main thread and [n] workers.  The steps are the operations on the
    shared objects: the mutex around the job receiver, the bounded job channel
    and the unbounded result channel.  Local computation between two such
    operations belongs to the step before it.  All workers exist from the
    start: a worker that is spawned late is one that has not been scheduled
    yet. *)

(** src/batch_tokenize.rs:27-49 [worker]: control points *)
Inductive worker :=
| WIdle (st : stats) (buf : list cost_state)               (* before lock(), line 36 *)
| WHold (st : stats) (buf : list cost_state)               (* holds the mutex, in recv(), line 36 *)
| WBusy (st : stats) (buf : list cost_state) (x : bstr)    (* has a sample, lines 44-45 *)
| WSending (st : stats)                                    (* before results_tx.send, line 48 *)
| WDone                                                    (* returned *)
| WDead.                                                   (* panicked *)

(** src/batch_tokenize.rs:51-104 [tokenize_file], main thread inside the scope.
    [sampler_fails] says whether the sampler's iterator panics after its last
    sample instead of returning [None]. *)
Inductive main :=
| MSend (rest : list bstr)            (* lines 78-80 *)
| MRecv (k : nat) (st : stats)        (* lines 84-87, k results to go *)
| MJoin (k : nat) (st : stats)        (* lines 97-99, k handles left *)
| MReturned (st : stats)
| MUnwinding                          (* panicked inside the scope, scope waits for the workers *)
| MPanicked.                          (* the panic left the scope *)

Record config := mkConfig {
  c_main : main;
  c_jobs : list bstr;        (* buffer of the job channel, capacity 4 *)
  c_closed : bool;           (* jobs_tx dropped *)
  c_results : list stats;    (* buffer of the result channel *)
  c_workers : list worker
}.

Definition is_hold (w : worker) : bool := match w with WHold _ _ => true | _ => false end.
Definition is_over (w : worker) : bool := match w with WDone | WDead => true | _ => false end.

Section Parallel.
Variables (ts : tokenset) (tk : tokenizer) (init : option nat) (sampler_fails : bool).

(** src/batch_tokenize.rs:44-45: [assert!(!data.is_empty())] and
    [process_slice]; a panic ends the worker. *)
Definition work (st : stats) (buf : list cost_state) (x : bstr) : worker :=
  match (_ <- assert_that (negb (bstr_eqb x [])) ;; process_slice tk x st buf) with
  | Ret (st', buf') => WIdle st' buf'
  | _ => WDead
  end.

Inductive step : config -> config -> Prop :=
(** line 79: [jobs_tx.send(sample)], possible while the buffer holds fewer than 4 *)
| st_send x rest jobs closed results ws :
    length jobs < 4 ->
    step (mkConfig (MSend (x :: rest)) jobs closed results ws)
         (mkConfig (MSend rest) (jobs ++ [x]) closed results ws)
(** lines 78, 82: iterator exhausted, [drop(jobs_tx)]; then the loop of line 84
    starts with the empty statistics of line 61 *)
| st_close jobs closed results ws :
    sampler_fails = false ->
    step (mkConfig (MSend []) jobs closed results ws)
         (mkConfig (MRecv (length ws) (stats_new ts init)) jobs true results ws)
(** the iterator panics: unwinding drops [jobs_tx] *)
| st_sampler_panic jobs closed results ws :
    sampler_fails = true ->
    step (mkConfig (MSend []) jobs closed results ws)
         (mkConfig MUnwinding jobs true results ws)
(** lines 85-86: [results_rx.recv()], [stats.merge(&result)] *)
| st_merge k st st' r results jobs closed ws :
    merge st r = Ret st' ->
    step (mkConfig (MRecv (S k) st) jobs closed (r :: results) ws)
         (mkConfig (MRecv k st') jobs closed results ws)
| st_merge_panic k st r results jobs closed ws :
    merge st r = Panic ->
    step (mkConfig (MRecv (S k) st) jobs closed (r :: results) ws)
         (mkConfig MUnwinding jobs closed results ws)
| st_received st results jobs closed ws :
    step (mkConfig (MRecv 0 st) jobs closed results ws)
         (mkConfig (MJoin (length ws) st) jobs closed results ws)
(** line 98: [join_handles.pop().unwrap().join().unwrap()], last handle first *)
| st_join k st results jobs closed ws :
    nth_error ws k = Some WDone ->
    step (mkConfig (MJoin (S k) st) jobs closed results ws)
         (mkConfig (MJoin k st) jobs closed results ws)
| st_join_panic k st results jobs closed ws :
    nth_error ws k = Some WDead ->
    step (mkConfig (MJoin (S k) st) jobs closed results ws)
         (mkConfig MUnwinding jobs closed results ws)
| st_return st results jobs closed ws :
    step (mkConfig (MJoin 0 st) jobs closed results ws)
         (mkConfig (MReturned st) jobs closed results ws)
(** [thread::scope] waits for all threads before it resumes the panic *)
| st_unwound results jobs closed ws :
    forallb is_over ws = true ->
    step (mkConfig MUnwinding jobs closed results ws)
         (mkConfig MPanicked jobs closed results ws)
(** worker, line 36: [jobs_rx.lock()] *)
| st_lock i st buf m jobs closed results ws :
    nth_error ws i = Some (WIdle st buf) -> existsb is_hold ws = false ->
    step (mkConfig m jobs closed results ws)
         (mkConfig m jobs closed results (upd i (fun _ => WHold st buf) ws))
(** worker, line 36: [recv()] returns a sample and the lock is released *)
| st_take i st buf x m jobs closed results ws :
    nth_error ws i = Some (WHold st buf) ->
    step (mkConfig m (x :: jobs) closed results ws)
         (mkConfig m jobs closed results (upd i (fun _ => WBusy st buf x) ws))
(** worker, lines 36, 40: [recv()] fails since the channel is empty and closed *)
| st_eof i st buf m results ws :
    nth_error ws i = Some (WHold st buf) ->
    step (mkConfig m [] true results ws)
         (mkConfig m [] true results (upd i (fun _ => WSending st) ws))
(** worker, lines 44-45 *)
| st_work i st buf x m jobs closed results ws :
    nth_error ws i = Some (WBusy st buf x) ->
    step (mkConfig m jobs closed results ws)
         (mkConfig m jobs closed results (upd i (fun _ => work st buf x) ws))
(** worker, line 48: [results_tx.send(stats)] *)
| st_result i st m jobs closed results ws :
    nth_error ws i = Some (WSending st) ->
    step (mkConfig m jobs closed results ws)
         (mkConfig m jobs closed (results ++ [st]) (upd i (fun _ => WDone) ws)).

(** src/batch_tokenize.rs:33-34, 60-76: start of the run; workers start with
    statistics without an initial size *)
Definition start (n : nat) (samples : list bstr) : config :=
  mkConfig (MSend samples) [] false [] (repeat (WIdle (stats_new ts None) []) n).

Inductive steps : config -> config -> Prop :=
| steps_refl c : steps c c
| steps_step c c' c'' : steps c c' -> step c' c'' -> steps c c''.

Definition final (c : config) : Prop :=
  match c_main c with MReturned _ | MPanicked => True | _ => False end.

End Parallel.

(** src/batch_tokenize.rs:51-58 [tokenize_file]: small samplers are handled
    sequentially, others by [n] workers; [par_result] is a possible result. *)
Definition small_size : N := 33554432.
Inductive par_result (ts : tokenset) (n : nat) (total_size : N) (samples : list bstr)
          (init : option nat) : stats -> Prop :=
| pr_small s : (total_size < small_size)%N ->
    tokenize_file_sync ts samples init = Ret s ->
    par_result ts n total_size samples init s
| pr_large tk c s : (small_size <= total_size)%N ->
    tokenizer_new ts = Ret tk ->
    steps ts tk init false (start ts n samples) c -> c_main c = MReturned s ->
    par_result ts n total_size samples init s.
