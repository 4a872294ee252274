(** * Model of [TokenizerCache] (src/batch_tokenize.rs:106-154). *)
From Verif Require Import Base TokenSetModel TokenizerModel BatchModel JsonModel.

(** src/stats2.rs:33-43 [clone_without_pairs]; also the effect of
    [stats.pair_counts.clear()] in src/batch_tokenize.rs:144-145. *)
Definition without_pairs (s : stats) : stats :=
  mkStats (st_token_set s) (total_tokens s) (initial_size s) (scanned_bytes s)
          (token_counts s) (seq_counts s) [].

(** A request to the cache. *)
Inductive request :=
| WithPairs (ts : tokenset)   (* get_stats_with_pairs *)
| NoPairs (ts : tokenset).    (* get_stats *)

Section Cache.
(** The sampler (what its iterator yields, and [total_size()]), the number of
    threads and the initial size are fixed for the life of the cache. *)
Variables (n : nat) (total : N) (samples : list bstr) (init : option nat).

(** One call: cache before, request, answer, cache after.  [tokenize_file] is
    the relation [par_result] since large samplers are tokenized in parallel. *)
Inductive call : smap stats -> request -> stats -> smap stats -> Prop :=
(** src/batch_tokenize.rs:121-131 [get_stats_with_pairs] *)
| call_with_pairs c ts ts' s k :
    ts_sort ts = Ret ts' -> par_result ts' n total samples init s -> get_key ts' = Ret k ->
    call c (WithPairs ts) s (sinsert c k (without_pairs s))
(** src/batch_tokenize.rs:133-141 [get_stats], key found *)
| call_hit c ts ts' s k :
    ts_sort ts = Ret ts' -> get_key ts' = Ret k -> sget c k = Some s ->
    call c (NoPairs ts) s c
(** src/batch_tokenize.rs:133-148 [get_stats], key not found *)
| call_miss c ts ts' s k :
    ts_sort ts = Ret ts' -> get_key ts' = Ret k -> sget c k = None ->
    par_result ts' n total samples init s ->
    call c (NoPairs ts) (without_pairs s) (sinsert c k (without_pairs s)).

(** src/batch_tokenize.rs:113-119 [new]: the cache starts empty.  A history is
    a list of requests with their answers, oldest first. *)
Inductive history : list (request * stats) -> smap stats -> Prop :=
| h_new : history [] []
| h_call h c r s c' : history h c -> call c r s c' -> history (h ++ [(r, s)]) c'.
End Cache.
