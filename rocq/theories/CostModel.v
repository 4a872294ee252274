(** * The work of src/tokenizer2.rs
    The functions of TokenizerModel.v that contain inner loops, with a counter
    added.  [PropCost.v] proves that erasing the counter gives back the model. *)
From Verif Require Import Base TokenSetModel TokenizerModel.

(** src/tokenizer2.rs:202-214: the [while span_idx != 0] loop; the last
    component counts its iterations. *)
Fixpoint best_span_c (fuel : nat) (spans : list span) (cs : list cost_state)
         (span_idx : nat) (best : option cost_state) (n : nat) : outcome (option cost_state * nat) :=
  if span_idx =? 0 then Ret (best, n) else
  match fuel with
  | O => OutOfFuel
  | S fuel' =>
      sp <- idx spans span_idx ;;
      i <- checked_sub (length cs) (length (sp_string sp)) ;;
      prev <- idx cs i ;;
      let cost := cs_cost prev + sp_cost sp in
      let best' :=
        match best with
        | None => Some (mkCost cost span_idx)
        | Some b => if cost <? cs_cost b then Some (mkCost cost span_idx) else best
        end in
      best_span_c fuel' spans cs (sp_suffix sp) best' (S n)
  end.

(** src/tokenizer2.rs:196-217: loop body of [process_slice]; the last component
    counts the iterations of all inner loops so far. *)
Definition scan_byte_c (tk : tokenizer) (s : nat * list cost_state * nat) (b : byte)
  : outcome (nat * list cost_state * nat) :=
  let '(st_idx, cs, n) := s in
  st <- idx (tk_states tk) st_idx ;;
  nxt <- idx (ss_next st) (b2n b) ;;
  st' <- idx (tk_states tk) nxt ;;
  '(best, n') <- best_span_c (length cs) (tk_spans tk) cs (ss_span st') None n ;;
  c <- unwrap best ;;
  Ret (nxt, cs ++ [c], n').

(** src/tokenizer2.rs:232-249: the back-trace loop; the last component counts
    its iterations. *)
Fixpoint back_trace_c (fuel : nat) (tk : tokenizer) (ntok : nat)
         (cs : list cost_state) (pos : nat) (next_token : option nat)
         (span_counts pairs : list nat) (n : nat) : outcome (list nat * list nat * nat) :=
  if pos =? 0 then Ret (span_counts, pairs, n) else
  match fuel with
  | O => OutOfFuel
  | S fuel' =>
      c <- idx cs pos ;;
      span_counts' <- idx_upd span_counts (cs_span c) S ;;
      sp <- idx (tk_spans tk) (cs_span c) ;;
      '(next', pairs') <-
         match sp_content sp with
         | SToken t =>
             match next_token with
             | Some nx => ps <- idx_upd pairs (t * ntok + nx) S ;; Ret (Some t, ps)
             | None => Ret (Some t, pairs)
             end
         | _ => Ret (None, pairs)
         end ;;
      pos' <- checked_sub pos (length (sp_string sp)) ;;
      back_trace_c fuel' tk ntok cs pos' next' span_counts' pairs' (S n)
  end.

(** src/tokenizer2.rs:222-272 [update_stats] *)
Definition update_stats_c (tk : tokenizer) (cs : list cost_state) (bytes : bstr)
           (s : stats) : outcome (stats * nat) :=
  lst <- unwrap (nth_error cs (length cs - 1)) ;;
  let ntok := ntokens (st_token_set s) in
  '(span_counts, pairs, n) <-
     back_trace_c (length bytes) tk ntok cs (length bytes) None
                (repeat 0 (length (tk_spans tk))) (pair_counts s) 0 ;;
  '(tc, sc) <- mfold (count_span (st_token_set s))
                     (combine (tl (tk_spans tk)) (tl span_counts))
                     (token_counts s, seq_counts s) ;;
  Ret (mkStats (st_token_set s) (total_tokens s + cs_cost lst) (initial_size s)
               (scanned_bytes s + length bytes) tc sc pairs, n).

(** src/tokenizer2.rs:190-220 [process_slice]: statistics, buffer, iterations of
    the inner loop of the scan, iterations of the back-trace. *)
Definition process_slice_c (tk : tokenizer) (bytes : bstr) (s : stats)
           (buffer : list cost_state) : outcome (stats * list cost_state * nat * nat) :=
  let cleared : list cost_state := firstn 0 buffer in
  '(_, cs, tried) <- mfold (scan_byte_c tk) bytes (0, cleared ++ [mkCost 0 0], 0) ;;
  '(s', back) <- update_stats_c tk cs bytes s ;;
  Ret (s', cs, tried, back).
