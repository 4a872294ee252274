(** * The search with machine arithmetic.

    OptBytesModel.v and OptimizeModel.v once more, with the integers of the
    program: [u64]/[usize] hold the numbers below [M], [i64] those from [-M/2]
    to below [M/2] ([M] = 2^64).  A debug build panics when the result of an
    addition, a subtraction, a multiplication or a negation does not fit, a
    release build wraps around; casts wrap in both.  Functions without such an
    operation are shared with the other models; so are indices and lengths of
    vectors ([i + 1], [counts_lo + 1]), which no vector of the program lets
    grow beyond 2^63. *)
From Coq Require Import ZArith.
From Verif Require Import Base TokenSetModel TokenizerModel BatchModel CacheModel OptBytesModel OptimizeModel OverflowModel PropCache.

Inductive build := Debug | Release.

(** [v.sort_by_key(key)]: stable. *)
Definition sort_by_key {A} (key : A -> outcome Z) (l : list A) : outcome (list A) :=
  ks <- mmap (fun a => k <- key a ;; Ret (k, a)) l ;;
  Ret (map snd (stable_sort (fun x y => Z.leb (fst x) (fst y)) ks)).

Section Machine.
Variables (bd : build) (M : nat).

(** The result of an operation on [u64] or [usize] *)
Definition u64 (x : nat) : outcome nat :=
  if x <? M then Ret x else match bd with Debug => Panic | Release => Ret (x mod M) end.
Definition uadd (a b : nat) : outcome nat := u64 (a + b).
Definition umul (a b : nat) : outcome nat := u64 (a * b).
Definition usub (a b : nat) : outcome nat :=
  if b <=? a then Ret (a - b)
  else match bd with Debug => Panic | Release => Ret ((a + (M - b mod M)) mod M) end.

(** [x as i64] *)
Definition as_i64 (x : nat) : Z :=
  if 2 * x <? M then Z.of_nat x else (Z.of_nat x - Z.of_nat M)%Z.
(** The result of an operation on [i64] *)
Definition i64 (z : Z) : outcome Z :=
  let h := (Z.of_nat M / 2)%Z in
  if ((- h <=? z) && (z <? h))%Z then Ret z
  else match bd with Debug => Panic | Release => Ret ((z + h) mod Z.of_nat M - h)%Z end.
Definition ineg (z : Z) : outcome Z := i64 (- z).
Definition isub (a b : Z) : outcome Z := i64 (a - b).

(** ** src/optimize_bytes.rs *)

(** src/optimize_bytes.rs:19-35, the table [byte_counts: [i64; 256]] *)
Definition w_simple_counts (s : stats) : outcome (list Z) :=
  c1 <- mfold (fun bc p =>
          match snd p with
          | Str [b] => c <- idx (token_counts s) (fst p) ;; idx_upd bc (b2n b) (fun _ => as_i64 c)
          | _ => Ret bc
          end) (enum (tokens (st_token_set s))) (repeat 0%Z 256) ;;
  mfold (fun bc p =>
          match seq_string (snd p) with
          | [b] => c <- idx (seq_counts s) (fst p) ;; idx_upd bc (b2n b) (fun _ => as_i64 c)
          | _ => Ret bc
          end) (enum (sequences (st_token_set s))) c1.

(** src/optimize_bytes.rs:15-68 *)
Definition w_simple_bytes : bytes_optimizer := fun s n =>
  let ts := st_token_set s in
  n_byte <- usub n (n_ext_tokens ts) ;;
  counts <- w_simple_counts s ;;
  bytes <- sort_by_key (fun b => c <- idx counts (b2n b) ;; ineg c) all_bytes ;;
  selected <- slice bytes 0 n_byte ;;
  ts0 <- match ts_type ts with
         | Bits1 => Ret (new_bits1 (ts_processing ts) (split_paragraphs ts))
         | Bits2 => Ret (new_bits2 (ts_processing ts) (split_paragraphs ts))
         | Bits4 => Ret (new_bits4 (ts_processing ts) (split_paragraphs ts))
         | Bytes | BytesHuff => Panic
         end ;;
  ts1 <- mfold (fun t b => '(t', _) <- add_token t [b] ;; Ret t') selected ts0 ;;
  add_long_tokens ts ts1.

(** src/optimize_bytes.rs:202-210 *)
Definition w_best_pair (nodes : list hnode) : outcome (option (nat * nat)) :=
  mfold (fun best i =>
           a <- idx nodes i ;;
           b <- idx nodes (i + 1) ;;
           c <- uadd (h_count a) (h_count b) ;;
           match best with
           | None => Ret (Some (c, i))
           | Some (m, _) => if c <? m then Ret (Some (c, i)) else Ret best
           end) (seq 0 (length nodes - 1)) None.

(** src/optimize_bytes.rs:201-223 *)
Fixpoint w_merge_nodes (fuel parts : nat) (nodes : list hnode) : outcome (list hnode) :=
  if parts <? length nodes then
    match fuel with
    | O => OutOfFuel
    | S fuel' =>
        best <- w_best_pair nodes ;;
        '(_, i) <- unwrap best ;;
        second <- idx nodes (i + 1) ;;
        rest <- vremove nodes (i + 1) ;;
        first <- idx rest i ;;
        c <- uadd (h_count first) (h_count second) ;;
        nodes' <- idx_upd rest i (fun _ => HInt c first second) ;;
        w_merge_nodes fuel' parts nodes'
    end
  else Ret nodes.

(** src/optimize_bytes.rs:190-231 *)
Definition w_optimize_splits (counts : ctable) (parts : nat) : outcome (list chars_split) :=
  nodes <- w_merge_nodes (length counts) parts (map (fun p => HLeaf (snd p) (fst p)) counts) ;;
  Ret (map node_to_split nodes).

(** src/optimize_bytes.rs:233-274 *)
Fixpoint w_optimize_ext_encoding (fuel : nat) (counts : ctable) (n_ext : nat)
  : outcome (list (byte * list nat)) :=
  if length counts <=? n_ext then
    Ret (map (fun p => (fst (snd p), [fst p])) (enum counts))
  else
    match fuel with
    | O => OutOfFuel
    | S fuel' =>
        splits <- w_optimize_splits counts n_ext ;;
        mfold (fun encs p =>
                 let '(i, sp) := p in
                 let encs := encs ++ [(cs_top sp, [i])] in
                 sub <- sub_table counts splits i sp ;;
                 match sub with
                 | None => Ret encs
                 | Some sub =>
                     sub_encs <- w_optimize_ext_encoding fuel' sub n_ext ;;
                     Ret (encs ++ map (fun e => (fst e, i :: snd e)) sub_encs)
                 end) (enum splits) []
    end.

(** src/optimize_bytes.rs:276-315 *)
Definition w_optimize_bytes_tokenset (counts : ctable) (n_char n_ext : nat) (p : processing)
  : outcome tokenset :=
  ts0 <- ts_new n_ext p BytesHuff true ;;
  splits <- w_optimize_splits counts n_char ;;
  mfold (fun ts e =>
           let '(i, sp) := e in
           '(ts, top_id) <- add_token ts [cs_top sp] ;;
           sub <- sub_table counts splits i sp ;;
           match sub with
           | None => Ret ts
           | Some sub =>
               encs <- w_optimize_ext_encoding (length sub) sub n_ext ;;
               Ret (fold_left (fun ts e => add_sequence ts [fst e] (top_id :: snd e)) encs ts)
           end) (enum splits) ts0.

(** src/optimize_bytes.rs:82-94 *)
Definition w_huff_counts (s : stats) : outcome ctable :=
  c1 <- mfold (fun t p =>
          match fst p with
          | Str [b] => c <- uadd (snd p) 1 ;; idx_upd t (b2n b) (fun _ => (b, c))
          | _ => Ret t
          end) (combine (tokens (st_token_set s)) (token_counts s))
        (map (fun b => (b, 1)) all_bytes) ;;
  mfold (fun t p =>
          _ <- assert_that (length (seq_string (fst p)) =? 1) ;;
          b <- idx (seq_string (fst p)) 0 ;;
          c <- uadd (snd p) 1 ;;
          idx_upd t (b2n b) (fun _ => (b, c)))
        (combine (sequences (st_token_set s)) (seq_counts s)) c1.

(** src/optimize_bytes.rs:106-118 *)
Definition w_huff_total (counts : ctable) (ts : tokenset) : outcome nat :=
  t1 <- mfold (fun total tok =>
          match tok with
          | Str s => _ <- assert_that (length s =? 1) ;;
                     b <- idx s 0 ;; c <- idx counts (b2n b) ;; uadd total (snd c)
          | Ext _ => Ret total
          end) (tokens ts) 0 ;;
  mfold (fun total q =>
          _ <- assert_that (length (seq_string q) =? 1) ;;
          b <- idx (seq_string q) 0 ;; c <- idx counts (b2n b) ;;
          d <- umul (snd c) (length (seq_tokens q)) ;; uadd total d) (sequences ts) t1.

(** src/optimize_bytes.rs:99-124 *)
Definition w_huff_round (counts : ctable) (n : nat) (p : processing)
           (best : option (tokenset * nat)) (n_ext : nat) : outcome (option (tokenset * nat)) :=
  n_byte <- usub n n_ext ;;
  ts <- w_optimize_bytes_tokenset counts n_byte n_ext p ;;
  total <- w_huff_total counts ts ;;
  match best with
  | None => Ret (Some (ts, total))
  | Some (_, b) => if total <? b then Ret (Some (ts, total)) else Ret best
  end.

(** src/optimize_bytes.rs:80-140 *)
Definition w_huff_bytes : bytes_optimizer := fun s n =>
  counts <- w_huff_counts s ;;
  n1 <- usub n 1 ;;
  let max_ext := Nat.min n1 10 in
  best <- mfold (w_huff_round counts n (ts_processing (st_token_set s))) (seq 2 (max_ext - 1)) None ;;
  '(ts, _) <- unwrap best ;;
  add_long_tokens (st_token_set s) ts.

(** src/optimize.rs:357-388 *)
Definition w_optimizer_for (t : token_type) : bytes_optimizer :=
  match t with
  | Bits1 | Bits2 | Bits4 => w_simple_bytes
  | Bytes => noop_bytes
  | BytesHuff => w_huff_bytes
  end.

(** ** src/optimize.rs *)

(** src/optimize.rs:15-24 *)
Definition w_is_valid_token (s : bstr) : outcome bool :=
  n <- usub (length s) 2 ;; valid_loop s (seq 0 n).

(** src/optimize.rs:60-78 *)
Fixpoint w_bpe_loop (s : stats) (pairs : list nat) (new_token : bstr) : outcome (bstr * nat) :=
  match pairs with
  | [] => Ret (new_token, 0)
  | p :: rest =>
      let n := ntokens (st_token_set s) in
      t1 <- idx (tokens (st_token_set s)) (p / n) ;;
      t2 <- idx (tokens (st_token_set s)) (p mod n) ;;
      match t1, t2 with
      | Str s1, Str s2 =>
          let new_token := s1 ++ s2 in
          v <- w_is_valid_token new_token ;;
          if v then c <- idx (pair_counts s) p ;; Ret (new_token, c)
          else w_bpe_loop s rest new_token
      | _, _ => Panic
      end
  end.

(** src/optimize.rs:51-92; the count is an [i64]. *)
Definition w_add_token_bpe (s : stats) : outcome (option (tokenset * Z)) :=
  pairs <- sort_by_key (fun i => c <- idx (pair_counts s) i ;; ineg (as_i64 c))
             (filter (fun i => 0 <? nth i (pair_counts s) 0) (seq 0 (length (pair_counts s)))) ;;
  '(new_token, token_count) <- w_bpe_loop s pairs [] ;;
  if bstr_eqb new_token [] then Ret None
  else '(ts, _) <- add_token (st_token_set s) new_token ;; Ret (Some (ts, as_i64 token_count)).

(** src/optimize.rs:94-134; [byte_cost] is the table of OptimizeModel.v, its
    entries are lengths. *)
Definition w_count_tokens_in_bytes (ts : tokenset) (s : stats) : outcome nat :=
  bc <- byte_costs ts ;;
  t1 <- mfold (fun total p =>
          match snd p with
          | Str [b] => o <- idx bc (b2n b) ;; c <- unwrap o ;;
                       k <- idx (token_counts s) (fst p) ;; d <- umul c k ;; uadd total d
          | _ => Ret total
          end) (enum (tokens (st_token_set s))) 0 ;;
  mfold (fun total p =>
          match seq_string (snd p) with
          | [b] => o <- idx bc (b2n b) ;; c <- unwrap o ;;
                   k <- idx (seq_counts s) (fst p) ;; d <- umul c k ;; uadd total d
          | _ => Ret total
          end) (enum (sequences (st_token_set s))) t1.

(** src/optimize.rs:136-152 *)
Definition w_add_byte (bo : bytes_optimizer) (s : stats) : outcome (option (tokenset * Z)) :=
  let ts := st_token_set s in
  old_count <- w_count_tokens_in_bytes ts s ;;
  n <- usub (ntokens ts) (n_long_tokens ts) ;;
  n1 <- uadd n 1 ;;
  new <- bo s n1 ;;
  if ntokens new =? ntokens ts then Ret None
  else
    new_count <- w_count_tokens_in_bytes new s ;;
    d <- isub (as_i64 old_count) (as_i64 new_count) ;;
    Ret (Some (new, d)).

Section Optimize.
Variables (bo : bytes_optimizer) (order : smap nat -> list bstr -> list bstr) (clock : nat -> bool).

(** src/optimize.rs:154-176 *)
Definition w_opt_add_token (ts : tokenset) : prog (option tokenset) :=
  s <~ get_stats_with_pairs ts ;;
  by_byte <~ PDone (w_add_byte bo s) ;;
  by_pair <~ PDone (w_add_token_bpe s) ;;
  pret (match by_byte, by_pair with
        | None, None => None
        | Some (t, _), None => Some t
        | None, Some (t, _) => Some t
        | Some (tb, cb), Some (tp, cp) => if (cp <? cb)%Z then Some tb else Some tp
        end).

(** src/optimize.rs:199-212 *)
Definition w_trade_byte (ts : tokenset) (n : nat) (s : stats) : prog (option stats) :=
  m <~ PDone (usub (ntokens ts) (n_long_tokens ts)) ;;
  if min_bytes_ext_tokens ts <? m then
    m1 <~ PDone (usub m 1) ;;
    new <~ PDone (bo s m1) ;;
    n1 <~ PDone (usub n 1) ;;
    _ <~ PDone (assert_that (ntokens new =? n1)) ;;
    new_stats <~ get_stats_with_pairs new ;;
    by_pair <~ PDone (w_add_token_bpe new_stats) ;;
    match by_pair with
    | Some (t, _) =>
        new_stats <~ get_stats t ;;
        pret (if total_tokens new_stats <? total_tokens s then Some new_stats else None)
    | None => pret None
    end
  else pret None.

(** src/optimize.rs:225-243 *)
Fixpoint w_replace_loop (ts : tokenset) (n : nat) (s : stats) (l : list bstr) (rc : smap nat)
  : prog (option stats * smap nat) :=
  match l with
  | [] => pret (None, rc)
  | x :: rest =>
      k <~ PDone (uadd (match sget rc x with Some k => k | None => 0 end) 1) ;;
      let rc := sinsert rc x k in
      i <~ PDone (unwrap (find_token ts x)) ;;
      new <~ PDone (remove_token ts i) ;;
      n1 <~ PDone (usub n 1) ;;
      _ <~ PDone (assert_that (ntokens new =? n1)) ;;
      added <~ w_opt_add_token new ;;
      match added with
      | Some newer =>
          newer_stats <~ get_stats newer ;;
          if total_tokens newer_stats <? total_tokens s then pret (Some newer_stats, rc)
          else w_replace_loop ts n s rest rc
      | None => w_replace_loop ts n s rest rc
      end
  end.

(** src/optimize.rs:178-247 *)
Definition w_remove_add_token (ts : tokenset) (n : nat) (rc : smap nat)
  : prog (option stats * smap nat) :=
  if ntokens ts <? n then
    added <~ w_opt_add_token ts ;;
    match added with
    | Some new => s <~ get_stats new ;; pret (Some s, rc)
    | None => pret (None, rc)
    end
  else
    _ <~ PDone (assert_that (ntokens ts =? n)) ;;
    s <~ get_stats ts ;;
    traded <~ w_trade_byte ts n s ;;
    match traded with
    | Some new_stats => pret (Some new_stats, rc)
    | None =>
        let to_remove := flat_map (fun t => match t with
                                            | Str x => if 1 <? length x then [x] else []
                                            | Ext _ => []
                                            end) (tokens ts) in
        w_replace_loop ts n s (order rc to_remove) rc
    end.

(** src/optimize.rs:249-285 *)
Definition w_optimization_step (ts : tokenset) (n : nat) (rc : smap nat)
  : prog (option tokenset * smap nat) :=
  s <~ get_stats ts ;;
  m <~ PDone (usub n (n_long_tokens ts)) ;;
  new <~ PDone (bo s m) ;;
  new_stats <~ get_stats new ;;
  if total_tokens new_stats <? total_tokens s then pret (Some (st_token_set new_stats), rc)
  else
    r <~ w_remove_add_token ts n rc ;;
    match r with
    | (Some new_stats, rc') =>
        _ <~ PDone (assert_that (ntokens (st_token_set new_stats) <=? n)) ;;
        pret (Some (st_token_set new_stats), rc')
    | (None, rc') => pret (None, rc')
    end.

(** src/optimize.rs:311-327 *)
Fixpoint w_optimize_loop (fuel round : nat) (ts : tokenset) (n : nat) (rc : smap nat)
  : prog tokenset :=
  match fuel with
  | O => PDone OutOfFuel
  | S fuel' =>
      r <~ w_optimization_step ts n rc ;;
      match r with
      | (Some new, rc') =>
          if clock round then PSave new (w_optimize_loop fuel' (S round) new n rc')
          else w_optimize_loop fuel' (S round) new n rc'
      | (None, _) => pret ts
      end
  end.

(** src/optimize.rs:294-331 *)
Definition w_optimize_impl (fuel : nat) (ts : tokenset) (n : nat) : prog stats :=
  _ <~ get_stats ts ;;
  ts <~ w_optimize_loop fuel 0 ts n [] ;;
  ts <~ PDone (ts_sort ts) ;;
  get_stats ts.
End Optimize.

(** src/optimize.rs:344-355 *)
Definition w_initial_set (n : nat) (p : processing) (t : token_type) (pretrained : option tokenset)
  : prog tokenset :=
  match pretrained, t with
  | Some ts, _ => pret ts
  | None, Bits1 => pret (new_bits1 p true)
  | None, Bits2 => pret (new_bits2 p true)
  | None, Bits4 => pret (new_bits4 p true)
  | None, Bytes => pret (new_bytes p)
  | None, BytesHuff => s <~ get_stats (new_bytes p) ;; PDone (w_huff_bytes s n)
  end.

(** src/optimize.rs:333-389 *)
Definition w_optimize_tokenset (order : smap nat -> list bstr -> list bstr) (clock : nat -> bool)
           (fuel n : nat) (p : processing) (t : token_type) (pretrained : option tokenset)
  : prog stats :=
  ts <~ w_initial_set n p t pretrained ;;
  w_optimize_impl (w_optimizer_for t) order clock fuel ts n.

(** ** Answers

    The samples are distributed among threads in some way: [parts] lists what
    each thread got, in the order in which the results are merged
    (src/batch_tokenize.rs:27-87); tokenizing and merging wrap around as in
    OverflowModel.v. *)
Fixpoint w_gather (tk : tokenizer) (ts : tokenset) (parts : list (list bstr)) (s : stats) : outcome stats :=
  match parts with
  | [] => Ret s
  | l :: rest =>
      '(r, _) <- wprocess_all M tk l (stats_new ts None, []) ;;
      s' <- wmerge M s r ;;
      w_gather tk ts rest s'
  end.

(** src/stats2.rs, src/batch_tokenize.rs:10-25 and 51-104 *)
Inductive w_answer (samples : list bstr) (init : option nat) : request -> stats -> Prop :=
| w_sequential r ts' tk s b :
    ts_sort (requested r) = Ret ts' -> tokenizer_new ts' = Ret tk ->
    wprocess_all M tk samples (stats_new ts' init, []) = Ret (s, b) ->
    w_answer samples init r (match r with WithPairs _ => s | NoPairs _ => without_pairs s end)
| w_parallel r ts' tk parts s :
    ts_sort (requested r) = Ret ts' -> tokenizer_new ts' = Ret tk ->
    Permutation (concat parts) samples ->
    w_gather tk ts' parts (stats_new ts' init) = Ret s ->
    w_answer samples init r (match r with WithPairs _ => s | NoPairs _ => without_pairs s end).

(** Runs of a program: requests are answered, sets are saved.  The cache is
    left out: a cached answer is an earlier answer (C15). *)
Inductive w_run {A} (samples : list bstr) (init : option nat) : prog A -> list tokenset -> outcome A -> Prop :=
| wr_done o : w_run samples init (PDone o) [] o
| wr_ask r k a sv o : w_answer samples init r a -> w_run samples init (k a) sv o -> w_run samples init (PAsk r k) sv o
| wr_save ts k sv o : w_run samples init k sv o -> w_run samples init (PSave ts k) (ts :: sv) o.
End Machine.
