(** * The tokenizer with machine arithmetic.

    Like TokenizerModel.v, but every addition and multiplication of counters, costs
    and indices is taken modulo [M], the way a release build computes with
    [u64]/[usize] ([M] = 2^64).  A debug build panics instead whenever a
    result would not be below [M]. *)
From Verif Require Import Base TokenSetModel TokenizerModel BatchModel.

Section Machine.
Variable M : nat.

Definition wadd (a b : nat) : nat := (a + b) mod M.
Definition wmul (a b : nat) : nat := (a * b) mod M.

(** src/tokenizer2.rs:202-214 *)
Fixpoint wbest_span (fuel : nat) (spans : list span) (cs : list cost_state)
         (span_idx : nat) (best : option cost_state) : outcome (option cost_state) :=
  if span_idx =? 0 then Ret best else
  match fuel with
  | O => OutOfFuel
  | S fuel' =>
      sp <- idx spans span_idx ;;
      i <- checked_sub (length cs) (length (sp_string sp)) ;;
      prev <- idx cs i ;;
      let cost := wadd (cs_cost prev) (sp_cost sp) in
      let best' :=
        match best with
        | None => Some (mkCost cost span_idx)
        | Some b => if cost <? cs_cost b then Some (mkCost cost span_idx) else best
        end in
      wbest_span fuel' spans cs (sp_suffix sp) best'
  end.

(** src/tokenizer2.rs:196-217 *)
Definition wscan_byte (tk : tokenizer) (s : nat * list cost_state) (b : byte)
  : outcome (nat * list cost_state) :=
  let '(st_idx, cs) := s in
  st <- idx (tk_states tk) st_idx ;;
  nxt <- idx (ss_next st) (b2n b) ;;
  st' <- idx (tk_states tk) nxt ;;
  best <- wbest_span (length cs) (tk_spans tk) cs (ss_span st') None ;;
  c <- unwrap best ;;
  Ret (nxt, cs ++ [c]).

(** src/tokenizer2.rs:232-249 *)
Fixpoint wback_trace (fuel : nat) (tk : tokenizer) (ntok : nat)
         (cs : list cost_state) (pos : nat) (next_token : option nat)
         (span_counts pairs : list nat) : outcome (list nat * list nat) :=
  if pos =? 0 then Ret (span_counts, pairs) else
  match fuel with
  | O => OutOfFuel
  | S fuel' =>
      c <- idx cs pos ;;
      span_counts' <- idx_upd span_counts (cs_span c) (wadd 1) ;;
      sp <- idx (tk_spans tk) (cs_span c) ;;
      '(next', pairs') <-
         match sp_content sp with
         | SToken t =>
             match next_token with
             | Some nx => ps <- idx_upd pairs (wadd (wmul t ntok) nx) (wadd 1) ;; Ret (Some t, ps)
             | None => Ret (Some t, pairs)
             end
         | _ => Ret (None, pairs)
         end ;;
      pos' <- checked_sub pos (length (sp_string sp)) ;;
      wback_trace fuel' tk ntok cs pos' next' span_counts' pairs'
  end.

(** src/tokenizer2.rs:251-271 *)
Definition wcount_span (stok : tokenset) (st : list nat * list nat)
           (p : span * nat) : outcome (list nat * list nat) :=
  let '(tc, sc) := st in
  let '(sp, count) := p in
  match sp_content sp with
  | SSequence q =>
      sc' <- idx_upd sc q (fun x => wadd x count) ;;
      sq <- idx (sequences stok) q ;;
      tc' <- mfold (fun tc t => idx_upd tc t (fun x => wadd x count)) (seq_tokens sq) tc ;;
      Ret (tc', sc')
  | SToken t => tc' <- idx_upd tc t (fun x => wadd x count) ;; Ret (tc', sc)
  | SNone => Panic
  end.

(** src/tokenizer2.rs:222-272 [update_stats] *)
Definition wupdate_stats (tk : tokenizer) (cs : list cost_state) (bytes : bstr)
           (s : stats) : outcome stats :=
  lst <- unwrap (nth_error cs (length cs - 1)) ;;
  let ntok := ntokens (st_token_set s) in
  '(span_counts, pairs) <-
     wback_trace (length bytes) tk ntok cs (length bytes) None
                (repeat 0 (length (tk_spans tk))) (pair_counts s) ;;
  '(tc, sc) <- mfold (wcount_span (st_token_set s))
                     (combine (tl (tk_spans tk)) (tl span_counts))
                     (token_counts s, seq_counts s) ;;
  Ret (mkStats (st_token_set s) (wadd (total_tokens s) (cs_cost lst)) (initial_size s)
               (wadd (scanned_bytes s) (length bytes)) tc sc pairs).

(** src/tokenizer2.rs:190-220 [process_slice] *)
Definition wprocess_slice (tk : tokenizer) (bytes : bstr) (s : stats)
           (buffer : list cost_state) : outcome (stats * list cost_state) :=
  let cleared : list cost_state := firstn 0 buffer in
  '(_, cs) <- mfold (wscan_byte tk) bytes (0, cleared ++ [mkCost 0 0]) ;;
  s' <- wupdate_stats tk cs bytes s ;;
  Ret (s', cs).

(** The samples one thread tokenizes, src/batch_tokenize.rs:10-25 and 62-77 *)
Definition wprocess_all (tk : tokenizer) (samples : list bstr)
           (s : stats * list cost_state) : outcome (stats * list cost_state) :=
  mfold (fun sb x => let '(s, b) := sb in wprocess_slice tk x s b) samples s.

(** src/stats2.rs:71-83 [merge] *)
Fixpoint wadd_counts (a b : list nat) : outcome (list nat) :=
  match a, b with
  | [], _ => Ret []
  | _ :: _, [] => Panic
  | x :: a', y :: b' => r <- wadd_counts a' b' ;; Ret (wadd x y :: r)
  end.
Definition wmerge (a b : stats) : outcome stats :=
  tc <- wadd_counts (token_counts a) (token_counts b) ;;
  sc <- wadd_counts (seq_counts a) (seq_counts b) ;;
  pc <- wadd_counts (pair_counts a) (pair_counts b) ;;
  Ret (mkStats (st_token_set a) (wadd (total_tokens a) (total_tokens b))
               (initial_size a) (wadd (scanned_bytes a) (scanned_bytes b)) tc sc pc).
End Machine.
