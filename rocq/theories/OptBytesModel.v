(** * Model of src/optimize_bytes.rs: choosing the single-byte tokens. *)
From Verif Require Import Base TokenSetModel TokenizerModel.

(** [&v[a..b]] *)
Definition slice {A} (v : list A) (a b : nat) : outcome (list A) :=
  if (a <=? b) && (b <=? length v) then Ret (firstn (b - a) (skipn a v)) else Panic.

(** [v.remove(i)] *)
Definition vremove {A} (v : list A) (i : nat) : outcome (list A) :=
  if i <? length v then Ret (firstn i v ++ skipn (S i) v) else Panic.

(** A table of bytes with their counts: [&[(u8, u64)]].  Counts are natural
    numbers; wrap-around of u64 is not modelled. *)
Notation ctable := (list (byte * nat)).

(** [Ord] of [(u8, u64)] *)
Definition entry_cmp (a b : byte * nat) : comparison :=
  match Nat.compare (b2n (fst a)) (b2n (fst b)) with
  | Eq => Nat.compare (snd a) (snd b)
  | c => c
  end.
Definition entry_ltb (a b : byte * nat) : bool :=
  match entry_cmp a b with Lt => true | _ => false end.

(** [v.binary_search(&k).unwrap_err()].  For a sorted slice without [k] the
    answer is the number of smaller elements; if [k] occurs, [unwrap_err]
    panics.  For an unsorted slice Rust promises nothing, so the model counts
    that as a panic as well. *)
Fixpoint entries_sorted (v : ctable) : bool :=
  match v with
  | x :: ((y :: _) as r) => cmp_leb (entry_cmp x y) && entries_sorted r
  | _ => true
  end.
Definition search_err (v : ctable) (k : byte * nat) : outcome nat :=
  _ <- assert_that (entries_sorted v) ;;
  _ <- assert_that (negb (existsb (fun x => match entry_cmp x k with Eq => true | _ => false end) v)) ;;
  Ret (length (filter (fun x => entry_ltb x k) v)).

(** src/optimize_bytes.rs:9-11 [trait BytesOptimizer]: the three implementations
    share one signature. *)
Definition bytes_optimizer := stats -> nat -> outcome tokenset.

(** Appending all multi-byte tokens of a set: lines 58-64 and 128-136. *)
Definition add_long_tokens (from : tokenset) (to : tokenset) : outcome tokenset :=
  mfold (fun t tok =>
           match tok with
           | Str s => if 1 <? length s then '(t', _) <- add_token t s ;; Ret t' else Ret t
           | Ext _ => Ret t
           end) (tokens from) to.

(** src/optimize_bytes.rs:19-35: the table of byte counts.  [single_byte_tokens]
    (lines 20, 26) is never read and left out. *)
Definition simple_counts (s : stats) : outcome (list nat) :=
  c1 <- mfold (fun bc p =>
          match snd p with
          | Str [b] => c <- idx (token_counts s) (fst p) ;; idx_upd bc (b2n b) (fun _ => c)
          | _ => Ret bc
          end) (enum (tokens (st_token_set s))) (repeat 0 256) ;;
  mfold (fun bc p =>
          match seq_string (snd p) with
          | [b] => c <- idx (seq_counts s) (fst p) ;; idx_upd bc (b2n b) (fun _ => c)
          | _ => Ret bc
          end) (enum (sequences (st_token_set s))) c1.

(** src/optimize_bytes.rs:15-68 [SimpleBytesOptimizer::optimize_bytes].  The
    key [-(count as i64)] of the stable sort is modelled by comparing counts
    the other way round (counts below 2^63). *)
Definition simple_bytes : bytes_optimizer := fun s n =>
  let ts := st_token_set s in
  n_byte <- checked_sub n (n_ext_tokens ts) ;;
  counts <- simple_counts s ;;
  let bytes := stable_sort (fun x y => nth (b2n y) counts 0 <=? nth (b2n x) counts 0) all_bytes in
  selected <- slice bytes 0 n_byte ;;
  ts0 <- match ts_type ts with
         | Bits1 => Ret (new_bits1 (ts_processing ts) (split_paragraphs ts))
         | Bits2 => Ret (new_bits2 (ts_processing ts) (split_paragraphs ts))
         | Bits4 => Ret (new_bits4 (ts_processing ts) (split_paragraphs ts))
         | Bytes | BytesHuff => Panic
         end ;;
  ts1 <- mfold (fun t b => '(t', _) <- add_token t [b] ;; Ret t') selected ts0 ;;
  add_long_tokens ts ts1.

(** src/optimize_bytes.rs:70-76 [NoopBytesOptimizer::optimize_bytes] *)
Definition noop_bytes : bytes_optimizer := fun s _ => Ret (st_token_set s).

(** src/optimize_bytes.rs:143-151 [struct CharsSplit] *)
Record chars_split := mkSplit { cs_lo : byte; cs_top : byte; cs_top_count : nat }.

(** src/optimize_bytes.rs:153-161 [HuffmanNode], [HuffmanNodeContent] *)
Inductive hnode :=
| HLeaf (count : nat) (ch : byte)
| HInt (count : nat) (first second : hnode).

Definition h_count (n : hnode) : nat := match n with HLeaf c _ => c | HInt c _ _ => c end.

(** [min] of two bytes *)
Definition byte_min (a b : byte) : byte := if b2n a <=? b2n b then a else b.

(** src/optimize_bytes.rs:163-187 [node_to_split] *)
Fixpoint node_to_split (n : hnode) : chars_split :=
  match n with
  | HLeaf c ch => mkSplit ch ch c
  | HInt _ a b =>
      let sa := node_to_split a in
      let sb := node_to_split b in
      let '(top, top_count) :=
        if cs_top_count sb <? cs_top_count sa then (cs_top sa, cs_top_count sa)
        else (cs_top sb, cs_top_count sb) in
      mkSplit (byte_min (cs_lo sa) (cs_lo sb)) top top_count
  end.

(** src/optimize_bytes.rs:202-210: the first adjacent pair of least joint count;
    the state is [(min_pair_count, best_idx)], both set together. *)
Definition best_pair (nodes : list hnode) : outcome (option (nat * nat)) :=
  mfold (fun best i =>
           a <- idx nodes i ;;
           b <- idx nodes (i + 1) ;;
           let c := h_count a + h_count b in
           match best with
           | None => Ret (Some (c, i))
           | Some (m, _) => if c <? m then Ret (Some (c, i)) else Ret best
           end) (seq 0 (length nodes - 1)) None.

(** src/optimize_bytes.rs:201-223: the [while] loop; every round drops one node,
    so [length nodes] is enough fuel. *)
Fixpoint merge_nodes (fuel parts : nat) (nodes : list hnode) : outcome (list hnode) :=
  if parts <? length nodes then
    match fuel with
    | O => OutOfFuel
    | S fuel' =>
        best <- best_pair nodes ;;
        '(_, i) <- unwrap best ;;
        second <- idx nodes (i + 1) ;;
        rest <- vremove nodes (i + 1) ;;
        first <- idx rest i ;;
        nodes' <- idx_upd rest i (fun _ => HInt (h_count first + h_count second) first second) ;;
        merge_nodes fuel' parts nodes'
    end
  else Ret nodes.

(** src/optimize_bytes.rs:190-231 [optimize_splits] *)
Definition optimize_splits (counts : ctable) (parts : nat) : outcome (list chars_split) :=
  nodes <- merge_nodes (length counts) parts (map (fun p => HLeaf (snd p) (fst p)) counts) ;;
  Ret (map node_to_split nodes).

(** src/optimize_bytes.rs:250-265 and 289-305 (the same code twice): the entries
    of the [i]-th split without its top character; [None] stands for
    [continue]. *)
Definition sub_table (counts : ctable) (splits : list chars_split) (i : nat) (sp : chars_split)
  : outcome (option ctable) :=
  lo <- search_err counts (cs_lo sp, 0) ;;
  hi <- (if i =? length splits - 1 then Ret (length counts)
         else next <- idx splits (i + 1) ;; search_err counts (cs_lo next, 0)) ;;
  if hi =? lo + 1 then Ret None
  else
    sub <- slice counts lo hi ;;
    top_idx <- search_err sub (cs_top sp, 0) ;;
    sub' <- vremove sub top_idx ;;
    Ret (Some sub').

(** src/optimize_bytes.rs:233-274 [optimize_ext_encoding].  Every recursive call
    is on a shorter table, so [length counts] is enough fuel. *)
Fixpoint optimize_ext_encoding (fuel : nat) (counts : ctable) (n_ext : nat)
  : outcome (list (byte * list nat)) :=
  if length counts <=? n_ext then
    Ret (map (fun p => (fst (snd p), [fst p])) (enum counts))
  else
    match fuel with
    | O => OutOfFuel
    | S fuel' =>
        splits <- optimize_splits counts n_ext ;;
        mfold (fun encs p =>
                 let '(i, sp) := p in
                 let encs := encs ++ [(cs_top sp, [i])] in
                 sub <- sub_table counts splits i sp ;;
                 match sub with
                 | None => Ret encs
                 | Some sub =>
                     sub_encs <- optimize_ext_encoding fuel' sub n_ext ;;
                     Ret (encs ++ map (fun e => (fst e, i :: snd e)) sub_encs)
                 end) (enum splits) []
    end.

(** src/optimize_bytes.rs:276-315 [optimize_bytes_tokenset] *)
Definition optimize_bytes_tokenset (counts : ctable) (n_char n_ext : nat) (p : processing)
  : outcome tokenset :=
  ts0 <- ts_new n_ext p BytesHuff true ;;
  splits <- optimize_splits counts n_char ;;
  mfold (fun ts e =>
           let '(i, sp) := e in
           '(ts, top_id) <- add_token ts [cs_top sp] ;;
           sub <- sub_table counts splits i sp ;;
           match sub with
           | None => Ret ts
           | Some sub =>
               encs <- optimize_ext_encoding (length sub) sub n_ext ;;
               Ret (fold_left (fun ts e => add_sequence ts [fst e] (top_id :: snd e)) encs ts)
           end) (enum splits) ts0.

(** src/optimize_bytes.rs:82-94: the table of byte counts, all of them at least
    one.  [zip] stops at the shorter list. *)
Definition huff_counts (s : stats) : outcome ctable :=
  c1 <- mfold (fun t p =>
          match fst p with
          | Str [b] => idx_upd t (b2n b) (fun _ => (b, snd p + 1))
          | _ => Ret t
          end) (combine (tokens (st_token_set s)) (token_counts s))
        (map (fun b => (b, 1)) all_bytes) ;;
  mfold (fun t p =>
          _ <- assert_that (length (seq_string (fst p)) =? 1) ;;
          b <- idx (seq_string (fst p)) 0 ;;
          idx_upd t (b2n b) (fun _ => (b, snd p + 1)))
        (combine (sequences (st_token_set s)) (seq_counts s)) c1.

(** src/optimize_bytes.rs:106-118: the number of tokens the bytes of the table
    would need. *)
Definition huff_total (counts : ctable) (ts : tokenset) : outcome nat :=
  t1 <- mfold (fun total tok =>
          match tok with
          | Str s => _ <- assert_that (length s =? 1) ;;
                     b <- idx s 0 ;; c <- idx counts (b2n b) ;; Ret (total + snd c)
          | Ext _ => Ret total
          end) (tokens ts) 0 ;;
  mfold (fun total q =>
          _ <- assert_that (length (seq_string q) =? 1) ;;
          b <- idx (seq_string q) 0 ;; c <- idx counts (b2n b) ;;
          Ret (total + snd c * length (seq_tokens q))) (sequences ts) t1.

(** src/optimize_bytes.rs:99-124: one round of the search for the number of
    extension tokens; the state is [(best_token_set, best_total_tokens)]. *)
Definition huff_round (counts : ctable) (n : nat) (p : processing)
           (best : option (tokenset * nat)) (n_ext : nat) : outcome (option (tokenset * nat)) :=
  n_byte <- checked_sub n n_ext ;;
  ts <- optimize_bytes_tokenset counts n_byte n_ext p ;;
  total <- huff_total counts ts ;;
  match best with
  | None => Ret (Some (ts, total))
  | Some (_, b) => if total <? b then Ret (Some (ts, total)) else Ret best
  end.

(** src/optimize_bytes.rs:80-140 [HuffOptimizer::optimize_bytes];
    [seq 2 (m - 1)] is [2..=m]. *)
Definition huff_bytes : bytes_optimizer := fun s n =>
  counts <- huff_counts s ;;
  n1 <- checked_sub n 1 ;;
  let max_ext := Nat.min n1 10 in
  best <- mfold (huff_round counts n (ts_processing (st_token_set s))) (seq 2 (max_ext - 1)) None ;;
  '(ts, _) <- unwrap best ;;
  add_long_tokens (st_token_set s) ts.
