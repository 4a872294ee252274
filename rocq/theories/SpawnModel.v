(** * Model of the loop that starts the workers (src/batch_tokenize.rs:68-76)

    [BatchModel] lets all workers exist from the start.  Here the main thread
    starts them one after another: a worker that runs may already lock the job
    receiver and wait for a sample while later workers have not been started,
    and the operating system may refuse to start a thread. *)
From Verif Require Import Base TokenSetModel TokenizerModel BatchModel.

Inductive spawned :=
| Spawning (ws : list worker)   (* lines 71-75: the workers started so far *)
| Running (c : config).         (* lines 78-99, or unwinding after a failed spawn *)

Section Spawn.
Variables (ts : tokenset) (tk : tokenizer) (init : option nat) (sampler_fails : bool).
(** line 62: the number of threads, and the samples of line 78 *)
Variables (n : nat) (samples : list bstr).
(** whether the operating system starts the thread number [i] *)
Variable os_starts : nat -> bool.

Inductive sstep : spawned -> spawned -> Prop :=
(** lines 71-75: [s.spawn], the handle is pushed; lines 32-33: the new worker
    begins with statistics without an initial size *)
| ss_spawn ws : length ws < n -> os_starts (length ws) = true ->
    sstep (Spawning ws) (Spawning (ws ++ [WIdle (stats_new ts None) []]))
(** line 74: [s.spawn] panics when the thread cannot be started; unwinding drops
    [jobs_tx], which the closure owns (line 82), before the scope waits *)
| ss_refused ws : length ws < n -> os_starts (length ws) = false ->
    sstep (Spawning ws) (Running (mkConfig MUnwinding [] true [] ws))
(** line 76: the loop is over *)
| ss_ready ws : length ws = n ->
    sstep (Spawning ws) (Running (mkConfig (MSend samples) [] false [] ws))
(** a worker that has been started makes a step; nothing has been sent yet *)
| ss_worker ws ws' :
    step ts tk init sampler_fails (mkConfig (MSend samples) [] false [] ws)
         (mkConfig (MSend samples) [] false [] ws') ->
    sstep (Spawning ws) (Spawning ws')
| ss_run c c' : step ts tk init sampler_fails c c' -> sstep (Running c) (Running c').

(** executions of [k] steps from the beginning of the loop, line 71 *)
Inductive ssteps : nat -> spawned -> Prop :=
| ssteps_start : ssteps 0 (Spawning [])
| ssteps_step k s s' : ssteps k s -> sstep s s' -> ssteps (S k) s'.

End Spawn.
