(** * Model of src/stats2.rs and src/tokenizer2.rs. *)
From Verif Require Import Base TokenSetModel.

(** src/stats2.rs:5-16 [struct TokenStats] *)
Record stats := mkStats {
  st_token_set : tokenset;
  total_tokens : nat;
  initial_size : option nat;
  scanned_bytes : nat;
  token_counts : list nat;
  seq_counts : list nat;
  pair_counts : list nat
}.

(** src/stats2.rs:19-31 [TokenStats::new] *)
Definition stats_new (ts : tokenset) (init : option nat) : stats :=
  mkStats ts 0 init 0
    (repeat 0 (length (tokens ts)))
    (repeat 0 (length (sequences ts)))
    (repeat 0 (length (tokens ts) * length (tokens ts))).

(** src/stats2.rs:74-82: [for i in 0..a.len() { a[i] += b[i] }] *)
Fixpoint add_counts (a b : list nat) : outcome (list nat) :=
  match a, b with
  | [], _ => Ret []
  | _ :: _, [] => Panic
  | x :: a', y :: b' => r <- add_counts a' b' ;; Ret (x + y :: r)
  end.

(** src/stats2.rs:71-83 [merge] *)
Definition merge (a b : stats) : outcome stats :=
  tc <- add_counts (token_counts a) (token_counts b) ;;
  sc <- add_counts (seq_counts a) (seq_counts b) ;;
  pc <- add_counts (pair_counts a) (pair_counts b) ;;
  Ret (mkStats (st_token_set a) (total_tokens a + total_tokens b)
               (initial_size a) (scanned_bytes a + scanned_bytes b) tc sc pc).

(** src/tokenizer2.rs:6-11 [enum SpanContent] *)
Inductive span_content := SNone | SToken (i : nat) | SSequence (i : nat).

(** src/tokenizer2.rs:13-24 [struct Span] *)
Record span := mkSpan {
  sp_content : span_content;
  sp_string : bstr;
  sp_suffix : nat;
  sp_cost : nat
}.

(** src/tokenizer2.rs:26-41 [struct SuffixState]; [next] has 256 entries *)
Record suffix_state := mkState {
  ss_suffix : bstr;
  ss_span : nat;
  ss_next : list nat
}.

(** src/tokenizer2.rs:43-47 [struct CostState] *)
Record cost_state := mkCost { cs_cost : nat; cs_span : nat }.

(** src/tokenizer2.rs:50-54 [struct FragmentTokenizer] *)
Record tokenizer := mkTokenizer {
  tk_token_set : tokenset;
  tk_spans : list span;
  tk_states : list suffix_state
}.

(** src/tokenizer2.rs:80-96: body of the token loop of [create_spans] *)
Definition add_token_span (st : list span * smap nat) (p : nat * token)
  : outcome (list span * smap nat) :=
  let '(spans, m) := st in
  match snd p with
  | Str s =>
      _ <- assert_that (negb (smem m s)) ;;
      Ret (spans ++ [mkSpan (SToken (fst p)) s 0 1], sinsert m s (length spans))
  | Ext _ => Ret st
  end.

(** src/tokenizer2.rs:99-109: body of the sequence loop of [create_spans] *)
Definition add_seq_span (st : list span * smap nat) (p : nat * sequence)
  : outcome (list span * smap nat) :=
  let '(spans, m) := st in
  let q := snd p in
  _ <- assert_that (negb (smem m (seq_string q))) ;;
  Ret (spans ++ [mkSpan (SSequence (fst p)) (seq_string q) 0 (length (seq_tokens q))],
       sinsert m (seq_string q) (length spans)).

(** src/tokenizer2.rs:112-120: suffix of one span (loop over [start] with
    [break]; 0 if none).  The strings of [spans[1..]] are never empty here: the
    map already holds the empty string, so inserting it panics above. *)
Definition find_suffix_span (m : smap nat) (s : bstr) : nat :=
  match find_map (fun start => sget m (skipn start s)) (seq 1 (length s - 1)) with
  | Some i => i
  | None => 0
  end.

Definition set_suffix (m : smap nat) (sp : span) : span :=
  mkSpan (sp_content sp) (sp_string sp) (find_suffix_span m (sp_string sp)) (sp_cost sp).

(** src/tokenizer2.rs:67-123 [create_spans] *)
Definition create_spans (ts : tokenset) : outcome (list span * smap nat) :=
  let spans0 := [mkSpan SNone [] 0 0] in
  let m0 := sinsert [] [] 0 in
  st1 <- mfold add_token_span (enum (tokens ts)) (spans0, m0) ;;
  '(spans, m) <- mfold add_seq_span (enum (sequences ts)) st1 ;;
  Ret (match spans with
       | [] => []
       | s0 :: r => s0 :: map (set_suffix m) r
       end, m).

(** src/tokenizer2.rs:137-160: body of the inner loop, for one prefix of a span *)
Definition add_prefix_state (m : smap nat) (st : list suffix_state * smap nat)
           (pref : bstr) : outcome (list suffix_state * smap nat) :=
  let '(states, sm) := st in
  if smem sm pref then Ret st else
  let suffix_span :=
    match find_map (fun start => sget m (skipn start pref)) (seq 0 (length pref)) with
    | Some i => i
    | None => 0
    end in
  _ <- assert_that (0 <? suffix_span) ;;
  Ret (states ++ [mkState pref suffix_span []], sinsert sm pref (length states)).

(** src/tokenizer2.rs:136-161: all prefixes of one span *)
Definition add_span_states (m : smap nat) (st : list suffix_state * smap nat)
           (sp : span) : outcome (list suffix_state * smap nat) :=
  mfold (add_prefix_state m)
        (map (fun e => firstn e (sp_string sp)) (seq 1 (length (sp_string sp)))) st.

(** src/tokenizer2.rs:166-184: the transition for one state and one byte *)
Definition next_state (sm : smap nat) (suffix : bstr) (b : byte) : outcome nat :=
  let s := suffix ++ [b] in
  let suffix_id :=
    match find_map (fun start => sget sm (skipn start s)) (seq 0 (length s)) with
    | Some i => i
    | None => 0
    end in
  _ <- assert_that (0 <? suffix_id) ;;
  Ret suffix_id.

(** src/tokenizer2.rs:163-185: the [next] table of one state *)
Definition fill_next (sm : smap nat) (st : suffix_state) : outcome suffix_state :=
  nx <- mmap (next_state sm (ss_suffix st)) all_bytes ;;
  Ret (mkState (ss_suffix st) (ss_span st) nx).

(** src/tokenizer2.rs:125-188 [create_suffix_states] *)
Definition create_suffix_states (spans : list span) (m : smap nat)
  : outcome (list suffix_state) :=
  '(states, sm) <- mfold (add_span_states m) spans
                         ([mkState [] 0 []], sinsert [] [] 0) ;;
  mmap (fill_next sm) states.

(** src/tokenizer2.rs:57-65 [FragmentTokenizer::new] *)
Definition tokenizer_new (ts : tokenset) : outcome tokenizer :=
  '(spans, m) <- create_spans ts ;;
  states <- create_suffix_states spans m ;;
  Ret (mkTokenizer ts spans states).

(** src/tokenizer2.rs:202-214: the [while span_idx != 0] loop.  [fuel] bounds the
    number of iterations; running out is [OutOfFuel].  [cs] is [cost_state]. *)
Fixpoint best_span (fuel : nat) (spans : list span) (cs : list cost_state)
         (span_idx : nat) (best : option cost_state) : outcome (option cost_state) :=
  if span_idx =? 0 then Ret best else
  match fuel with
  | O => OutOfFuel
  | S fuel' =>
      sp <- idx spans span_idx ;;
      i <- checked_sub (length cs) (length (sp_string sp)) ;;
      prev <- idx cs i ;;
      let cost := cs_cost prev + sp_cost sp in
      let best' :=
        match best with
        | None => Some (mkCost cost span_idx)
        | Some b => if cost <? cs_cost b then Some (mkCost cost span_idx) else best
        end in
      best_span fuel' spans cs (sp_suffix sp) best'
  end.

(** src/tokenizer2.rs:196-217: loop body of [process_slice]; the state is
    (current suffix state index, cost_state) *)
Definition scan_byte (tk : tokenizer) (s : nat * list cost_state) (b : byte)
  : outcome (nat * list cost_state) :=
  let '(st_idx, cs) := s in
  st <- idx (tk_states tk) st_idx ;;
  nxt <- idx (ss_next st) (b2n b) ;;
  st' <- idx (tk_states tk) nxt ;;
  best <- best_span (length cs) (tk_spans tk) cs (ss_span st') None ;;
  c <- unwrap best ;;
  Ret (nxt, cs ++ [c]).

(** src/tokenizer2.rs:232-249: the back-trace loop.  Fuel as above. *)
Fixpoint back_trace (fuel : nat) (tk : tokenizer) (ntok : nat)
         (cs : list cost_state) (pos : nat) (next_token : option nat)
         (span_counts pairs : list nat) : outcome (list nat * list nat) :=
  if pos =? 0 then Ret (span_counts, pairs) else
  match fuel with
  | O => OutOfFuel
  | S fuel' =>
      c <- idx cs pos ;;
      span_counts' <- idx_upd span_counts (cs_span c) S ;;
      sp <- idx (tk_spans tk) (cs_span c) ;;
      '(next', pairs') <-
         match sp_content sp with
         | SToken t =>
             match next_token with
             | Some nx => ps <- idx_upd pairs (t * ntok + nx) S ;; Ret (Some t, ps)
             | None => Ret (Some t, pairs)
             end
         | _ => Ret (None, pairs)
         end ;;
      pos' <- checked_sub pos (length (sp_string sp)) ;;
      back_trace fuel' tk ntok cs pos' next' span_counts' pairs'
  end.

(** src/tokenizer2.rs:251-271: body of the final loop of [update_stats]; the
    state is (token_counts, seq_counts) *)
Definition count_span (stok : tokenset) (st : list nat * list nat)
           (p : span * nat) : outcome (list nat * list nat) :=
  let '(tc, sc) := st in
  let '(sp, count) := p in
  match sp_content sp with
  | SSequence q =>
      sc' <- idx_upd sc q (fun x => x + count) ;;
      sq <- idx (sequences stok) q ;;
      tc' <- mfold (fun tc t => idx_upd tc t (fun x => x + count)) (seq_tokens sq) tc ;;
      Ret (tc', sc')
  | SToken t => tc' <- idx_upd tc t (fun x => x + count) ;; Ret (tc', sc)
  | SNone => Panic
  end.

(** src/tokenizer2.rs:222-272 [update_stats].  [combine (tl spans) (tl counts)]
    is the loop [for span_idx in 1..self.spans.len()]; both vectors have the
    same length. *)
Definition update_stats (tk : tokenizer) (cs : list cost_state) (bytes : bstr)
           (s : stats) : outcome stats :=
  lst <- unwrap (nth_error cs (length cs - 1)) ;;
  let ntok := ntokens (st_token_set s) in
  '(span_counts, pairs) <-
     back_trace (length bytes) tk ntok cs (length bytes) None
                (repeat 0 (length (tk_spans tk))) (pair_counts s) ;;
  '(tc, sc) <- mfold (count_span (st_token_set s))
                     (combine (tl (tk_spans tk)) (tl span_counts))
                     (token_counts s, seq_counts s) ;;
  Ret (mkStats (st_token_set s) (total_tokens s + cs_cost lst) (initial_size s)
               (scanned_bytes s + length bytes) tc sc pairs).

(** src/tokenizer2.rs:190-220 [process_slice]: takes the caller's buffer, which
    is cleared first, and returns the statistics and the buffer. *)
Definition process_slice (tk : tokenizer) (bytes : bstr) (s : stats)
           (buffer : list cost_state) : outcome (stats * list cost_state) :=
  let cleared : list cost_state := firstn 0 buffer in
  '(_, cs) <- mfold (scan_byte tk) bytes (0, cleared ++ [mkCost 0 0]) ;;
  s' <- update_stats tk cs bytes s ;;
  Ret (s', cs).
