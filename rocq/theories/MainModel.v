(** * Model of the optimization driver in src/main.rs. *)
From Coq Require Import ZArith.
From Verif Require Import Base TokenSetModel TokenizerModel BatchModel SamplerModel CacheModel OptBytesModel OptimizeModel.

(** Sizes that occur in the driver: [1 << 20] and [1 << 24]. *)
Definition mega : N := 1048576.
Definition large : N := 16777216.

Section Driver.
(** [near s f]: the floating point test of src/main.rs:181-183, whether the bytes per
    token of [s] and [f] differ by less than 0.5%.  [below size]: the floating point
    test of [sample_from_file] for this size (see [subsample]).  [clock size]: the save
    times of the round with this size.  [rounds]: see [optimize_loop].  [reads]: what
    [read] returns at each position of the file. *)
Variables (threads rounds n : nat) (p : processing) (t : token_type) (init : option nat).
Variables (order : smap nat -> list bstr -> list bstr) (clock : N -> nat -> bool).
Variables (near : stats -> stats -> bool) (below : N -> nat -> nat -> bool).
Variables (reads : nat -> nat) (file : bstr).

(** src/main.rs:158: the samples of [full_sampler]; its size is the length of the
    file (src/input/file_sampler.rs). *)
Definition full_samples : outcome (list bstr) :=
  file_samples (S (length file)) reads file (N.to_nat large) 0.
Definition full_size : N := N.of_nat (length file).

(** src/main.rs:164: the sampler for [size] bytes *)
Definition sampler (size : N) : outcome (N * list bstr) :=
  data <- subsample (below size) file ;;
  samples <- memory_samples (S (length data)) data (N.to_nat mega) ;;
  Ret (N.of_nat (length data), samples).

(** src/main.rs:151-197 [optimize_with_increasing_data]: the state at the head
    of the loop, or how the function ended. *)
Inductive istate :=
| IRun (size : N) (pre : option tokenset)
| IReturned (s : stats)
| IPanicked.

(** One round, lines 163-193.  Printing is left out; [size *= 2] cannot
    overflow as file sizes are below 2^63.  The statistics of the given token set on
    the new sampler (167-170) are only printed, but can panic. *)
Inductive istep : istate -> istate -> Prop :=
| is_end size pre : (full_size <= size)%N -> istep (IRun size pre) IPanicked
| is_pre_panics size ts : (size < full_size)%N -> tokenizer_new ts = Panic ->
    istep (IRun size (Some ts)) IPanicked
| is_optimize_panics size pre total samples m : (size < full_size)%N ->
    sampler size = Ret (total, samples) ->
    steps threads total samples init
      (mkMachine [] [] (optimize_tokenset order (clock size) rounds n p t pre)) m ->
    m_prog m = PDone Panic -> istep (IRun size pre) IPanicked
| is_full_panics size pre total samples m s : (size < full_size)%N ->
    sampler size = Ret (total, samples) ->
    steps threads total samples init
      (mkMachine [] [] (optimize_tokenset order (clock size) rounds n p t pre)) m ->
    m_prog m = PDone (Ret s) -> full_samples = Panic -> istep (IRun size pre) IPanicked
| is_round size pre total samples m s full f : (size < full_size)%N ->
    sampler size = Ret (total, samples) ->
    steps threads total samples init
      (mkMachine [] [] (optimize_tokenset order (clock size) rounds n p t pre)) m ->
    m_prog m = PDone (Ret s) ->
    full_samples = Ret full -> par_result (st_token_set s) threads full_size full init f ->
    istep (IRun size pre)
      (if (large <? size)%N && near s f then IReturned f
       else IRun (size * 2) (Some (st_token_set s))).

Inductive isteps : istate -> istate -> Prop :=
| iss_refl x : isteps x x
| iss_more x y z : isteps x y -> istep y z -> isteps x z.
End Driver.
