(** * Model of src/optimizer.rs: the earlier optimizer, on the token sets of
    src/tokens.rs (see LegacyModel.v).  Not part of the program that is built.

    What the program does not determine is given by an [oracle]: how the samples
    are distributed over the threads, in which order a [HashMap] is iterated, and
    in which order an unstable sort leaves elements with equal keys.  Each
    choice may depend on a counter, so that no two calls need to choose alike.
    Printing is not modelled. *)
From Verif Require Import Base LegacyModel.
From Coq Require Import ZArith Sorted Permutation.

Record oracle := mkOracle {
  o_dist : nat -> list bstr -> list (list bstr);
  o_iter : nat -> list (N * nat) -> list (N * nat);
  (** the positions of the given keys, in the order of the sorted keys *)
  o_sort : nat -> list Z -> list nat
}.

Definition sorts (order : list nat) (keys : list Z) : Prop :=
  Permutation order (seq 0 (length keys)) /\
  StronglySorted (fun i j => (nth i keys 0 <= nth j keys 0)%Z) order.

Record oracle_ok (o : oracle) : Prop := {
  o_dist_ok : forall k l, Permutation (concat (o_dist o k l)) l;
  o_iter_ok : forall k l, Permutation (o_iter o k l) l;
  o_sort_ok : forall k l, sorts (o_sort o k l) l
}.

(** ** src/optimizer.rs:20-82 [TokenizerCache] *)
Record lcache := mkLcache { lc_samples : list bstr; lc_map : smap lstats; lc_calls : nat }.

Definition lcache_new (samples : list bstr) : lcache := mkLcache samples [] 0.

(** src/optimizer.rs:34-45 and 57-68: the key.  The strings of a token set are distinct, so
    the unstable sort has one result only. *)
Definition l_key (ts : lset) : bstr :=
  flat_map (fun s => s ++ [n2b 0]) (stable_sort (fun a b => cmp_leb (bstr_cmp a b)) (map lt_string (l_tokens ts))).

Definition no_pairs (s : lstats) : lstats :=
  mkLstats (ls_lit_cost s) (ls_tokens s) [] (ls_literals s) (ls_scanned s).

(** src/optimizer.rs:33-53 *)
Definition get_stats_with_pairs (o : oracle) (c : lcache) (ts : lset) : outcome (lstats * lcache) :=
  s <- l_tokenize ts true (o_dist o (lc_calls c) (lc_samples c)) ;;
  Ret (s, mkLcache (lc_samples c) (sinsert (lc_map c) (l_key ts) (no_pairs s)) (S (lc_calls c))).

(** src/optimizer.rs:55-78 *)
Definition l_get_stats (o : oracle) (c : lcache) (ts : lset) : outcome (lstats * lcache) :=
  match sget (lc_map c) (l_key ts) with
  | Some s => Ret (s, c)
  | None =>
      s <- l_tokenize ts false (o_dist o (lc_calls c) (lc_samples c)) ;;
      Ret (s, mkLcache (lc_samples c) (sinsert (lc_map c) (l_key ts) (no_pairs s)) (S (lc_calls c)))
  end.

(** ** src/optimizer.rs:84-124 [add_tokens] *)

(** :100-110 the string and the count of a pair *)
Definition pair_value (ts : lset) (kc : N * nat) : outcome (bstr * nat) :=
  a <- idx (l_tokens ts) (N.to_nat (fst kc / 65536)) ;;
  b <- idx (l_tokens ts) (N.to_nat (fst kc mod 65536)) ;;
  Ret (lt_string a ++ lt_string b, snd kc).
Definition pos_pairs (l : list (N * nat)) : list (N * nat) := filter (fun kc => 0 <? snd kc) l.

(** :93-98; the value is a [u64] *)
Definition literal_values (s : lstats) (cost : nat) : list (bstr * nat) :=
  flat_map (fun i => let n := nth i (ls_literals s) 0 in if 0 <? n then [([n2b i], n * (cost - 1))] else []) (seq 0 256).

Definition pick {A} (l : list A) (order : list nat) : outcome (list A) := mmap (idx l) order.

Definition add_tokens (o : oracle) (c : lcache) (ts : lset) (n : nat) : outcome (lset * list bstr * lcache) :=
  '(s, c') <- get_stats_with_pairs o c ts ;;
  pv <- mmap (pair_value ts) (pos_pairs (o_iter o (lc_calls c) (ls_pairs s))) ;;
  let values := literal_values s (literal_cost (l_enc ts)) ++ pv in
  sorted <- pick values (o_sort o (lc_calls c) (map (fun v => (- Z.of_nat (snd v))%Z) values)) ;;
  let added := map fst (firstn n sorted) in
  ts' <- mfold l_add_token added ts ;;
  Ret (ts', added, c').

(** ** src/optimizer.rs:126-170 [add_token]: the string to add *)

(** :137-142 *)
Definition best_literal (s : lstats) : option bstr * nat :=
  fold_left (fun b i => let n := nth i (ls_literals s) 0 in if snd b <? n then (Some [n2b i], n) else b) (seq 0 256) (None, 0).
(** :149-166: one pair *)
Definition consider_pair (ts : lset) (st : option bstr * nat * smap nat) (kc : N * nat) : outcome (option bstr * nat * smap nat) :=
  let '(added, best, values) := st in
  if 0 <? snd kc then
    '(str, n) <- pair_value ts kc ;;
    let total := match sget values str with Some v => v | None => 0 end + n in
    let values' := sinsert values str total in
    Ret (if best <? total then (Some str, total, values') else (added, best, values'))
  else Ret st.
Definition choose_token (o : oracle) (c : lcache) (ts : lset) : outcome (bstr * lcache) :=
  '(s, c') <- get_stats_with_pairs o c ts ;;
  let '(added, best) := best_literal s in
  '(added', _, _) <- mfold (consider_pair ts) (o_iter o (lc_calls c) (ls_pairs s)) (added, best, []) ;;
  str <- unwrap added' ;;
  Ret (str, c').

(** ** src/optimizer.rs:252-347 [remove_and_add_token] *)

(** [*token_attempts.get(s).unwrap_or(&0)] *)
Definition attempts_of (m : smap nat) (s : bstr) : nat := match sget m s with Some n => n | None => 0 end.

Inductive raa_result := RGiveUp | RNone | RSome (ts : lset).

(** :297-344: the loop over the strings to remove.  [fast]: the caches change. *)
Fixpoint raa_loop (o : oracle) (ts : lset) (cost : nat) (strs : list bstr) (tries : nat)
   (c fast : lcache) (attempts : smap nat) : outcome (raa_result * lcache * lcache * smap nat) :=
  match strs with
  | [] => Ret (RNone, c, fast, attempts)
  | s :: rest =>
      let count := attempts_of attempts s in
      if (512 <=? tries) && (0 <? count) then Ret (RGiveUp, c, fast, sinsert attempts s count)
      else
        let attempts' := sinsert attempts s (S count) in
        new <- l_remove_token ts s ;;
        '(added, fast') <- choose_token o fast new ;;
        if bstr_eqb added s then raa_loop o ts cost rest (S tries) c fast' attempts'
        else
          new' <- l_add_token new added ;;
          '(st, c') <- l_get_stats o c new' ;;
          if l_cost st <? cost then Ret (RSome new', c', fast', attempts')
          else raa_loop o ts cost rest (S tries) c' fast' attempts'
  end.

(** :258-293: the strings to try.  [token_count[i] as u64 + (attempts << 32)] *)
Definition raa_strings (o : oracle) (k : nat) (ts : lset) (s : lstats) (attempts : smap nat) : outcome (list bstr) :=
  keys <- mmap (fun p => n <- idx (ls_tokens s) (fst p) ;;
                         Ret (Z.of_nat n + Z.of_nat (attempts_of attempts (lt_string (snd p))) * 2 ^ 32)%Z) (enum (l_tokens ts)) ;;
  sorted <- pick (l_tokens ts) (o_sort o k keys) ;;
  Ret (map lt_string (filter (fun t => negb (lt_mandatory t)) sorted)).

Definition remove_and_add (o : oracle) (c fast : lcache) (ts : lset) (attempts : smap nat)
  : outcome (option lset * lcache * lcache * smap nat) :=
  '(s, c') <- l_get_stats o c ts ;;
  strs <- raa_strings o (lc_calls c) ts s attempts ;;
  '(r, c'', fast', attempts') <- raa_loop o ts (l_cost s) strs 0 c' fast attempts ;;
  Ret (match r with RSome new => Some new | _ => None end, c'', fast', attempts').

(** ** src/optimizer.rs:349-369 [add_tokens_bpe] *)
Fixpoint add_tokens_bpe (fuel : nat) (o : oracle) (c : lcache) (ts : lset) (n block : nat) : outcome (lset * lcache) :=
  if l_ntokens ts <? n then
    match fuel with
    | O => OutOfFuel
    | S fuel' =>
        '(ts', _, c') <- add_tokens o c ts (Nat.min block (n - l_ntokens ts)) ;;
        '(_, c'') <- l_get_stats o c' ts' ;;
        add_tokens_bpe fuel' o c'' ts' n block
    end
  else Ret (ts, c).

(** ** src/optimizer.rs:427-488 [optimize_byte_tokens] *)

(** :428-437: for every byte, the count and whether it is a token *)
Definition count_byte (st : list nat * nat * list bool) (p : ltoken * nat) : outcome (list nat * nat * list bool) :=
  let '(count, n, is_token) := st in
  let '(t, k) := p in
  match lt_string t with
  | [b] =>
      count' <- idx_upd count (b2n b) (fun x => x + k) ;;
      is_token' <- idx_upd is_token (b2n b) (fun _ => true) ;;
      Ret (count', S n, is_token')
  | _ => Ret st
  end.

(** :439-444 *)
Definition count_literal (literals : list nat) (count : list nat) (i : nat) : outcome (list nat) :=
  n <- idx literals i ;;
  if 0 <? n then
    x <- idx count i ;;
    _ <- assert_that (x =? 0) ;;
    idx_upd count i (fun _ => n)
  else Ret count.

(** The tokens with their counts.  Simplified: a token without a count panics here; the
    code panics only if its string has one byte.  Statistics of the set have a count for every token. *)
Fixpoint zip_counts (l : list ltoken) (k : list nat) : outcome (list (ltoken * nat)) :=
  match l, k with
  | [], _ => Ret []
  | _ :: _, [] => Panic
  | t :: l', n :: k' => r <- zip_counts l' k' ;; Ret ((t, n) :: r)
  end.

(** [ids] is the result of [ids.sort_unstable_by_key(|&i| Reverse(byte_count[i]))]. *)
Definition optimize_byte_tokens (o : oracle) (k : nat) (ts : lset) (s : lstats) : outcome (lset * bool) :=
  zs <- zip_counts (l_tokens ts) (ls_tokens s) ;;
  '(count, n, is_token) <- mfold count_byte zs (repeat 0 256, 0, repeat false 256) ;;
  count' <- mfold (count_literal (ls_literals s)) (seq 0 256) count ;;
  let ids := o_sort o k (map (fun c => (- Z.of_nat c)%Z) count') in
  let to_add := filter (fun i => negb (nth i is_token false)) (firstn n ids) in
  let to_remove := filter (fun i => nth i is_token false) (skipn n ids) in
  match to_add with
  | [] => _ <- assert_that (length to_remove =? 0) ;; Ret (ts, false)
  | _ :: _ =>
      _ <- assert_that (negb (length to_remove =? 0)) ;;
      ts1 <- mfold (fun ts i => l_remove_token ts [n2b i]) to_remove ts ;;
      ts2 <- mfold (fun ts i => l_add_token ts [n2b i]) to_add ts1 ;;
      Ret (ts2, true)
  end.

(** ** src/optimizer.rs:508-612 [optimize_token_set].  Result: what was saved, oldest
    first.  [timer k]: whether 600 seconds have passed when iteration [k] of
    the loop asks.  [slow]: the samples of the slow sampler; its tokenization is not
    cached; [j]: the counter given to the oracle. *)
Definition slow_stats (o : oracle) (j : nat) (ts : lset) (slow : list bstr) : outcome lstats :=
  l_tokenize ts false (o_dist o j slow).

Definition saved := list (lset * lstats).

Fixpoint opt_loop (fuel : nat) (o : oracle) (timer : nat -> bool) (slow : list bstr) (k : nat)
   (c fast : lcache) (ts : lset) (attempts : smap nat) (best : nat) (out : saved) : outcome (lset * nat * saved * nat) :=
  match fuel with
  | O => OutOfFuel
  | S fuel' =>
      '(r, c', fast', attempts') <- remove_and_add o c fast ts attempts ;;
      match r with
      | None => Ret (ts, best, out, k)
      | Some ts1 =>
          if timer k then
            s <- slow_stats o k ts1 slow ;;
            '(ts2, changed) <- optimize_byte_tokens o k ts1 s ;;
            s2 <- (if changed then slow_stats o k ts2 slow else Ret s) ;;
            if l_cost s2 <? best
            then opt_loop fuel' o timer slow (S k) c' fast' ts2 attempts' (l_cost s2) (out ++ [(ts2, s2)])
            else opt_loop fuel' o timer slow (S k) c' fast' ts2 attempts' best out
          else opt_loop fuel' o timer slow (S k) c' fast' ts1 attempts' best out
      end
  end.

Definition optimize_token_set (fuel : nat) (o : oracle) (timer : nat -> bool) (slow samples fast_samples : list bstr)
   (ts : lset) (n block : nat) : outcome saved :=
  '(ts0, c) <- add_tokens_bpe fuel o (lcache_new samples) ts n block ;;
  s <- slow_stats o 0 ts0 slow ;;
  '(ts1, changed) <- optimize_byte_tokens o 0 ts0 s ;;
  s1 <- (if changed
         then s' <- slow_stats o 0 ts1 slow ;; _ <- assert_that (l_cost s' <=? l_cost s) ;; Ret s'
         else Ret s) ;;
  '(ts2, best, out, k) <- opt_loop fuel o timer slow 1 c (lcache_new fast_samples) ts1 [] (l_cost s1) [(ts1, s1)] ;;
  s2 <- slow_stats o k ts2 slow ;;
  '(ts3, changed2) <- optimize_byte_tokens o k ts2 s2 ;;
  s3 <- (if changed2
         then s' <- slow_stats o k ts3 slow ;; _ <- assert_that (l_cost s' <? l_cost s2) ;; Ret s'
         else Ret s2) ;;
  Ret (if l_cost s3 <=? best then out ++ [(ts3, s3)] else out).

(** ** src/optimizer.rs:371-420 [optimize_bpe] *)
Fixpoint bpe_loop (fuel : nat) (o : oracle) (c fast : lcache) (ts : lset) (attempts : smap nat) : outcome (lset * lcache) :=
  match fuel with
  | O => OutOfFuel
  | S fuel' =>
      '(_, c0) <- l_get_stats o c ts ;;
      '(r, c', fast', attempts') <- remove_and_add o c0 fast ts attempts ;;
      match r with
      | Some ts' => bpe_loop fuel' o c' fast' ts' attempts'
      | None => Ret (ts, c')
      end
  end.
Definition optimize_bpe (fuel : nat) (o : oracle) (ts : lset) (n : nat) (samples fast_samples : list bstr) (block : nat)
  : outcome (lset * lstats) :=
  '(ts0, c) <- add_tokens_bpe fuel o (lcache_new samples) ts n block ;;
  '(ts1, c1) <- bpe_loop fuel o c (lcache_new fast_samples) ts0 [] ;;
  '(s, _) <- l_get_stats o c1 ts1 ;;
  Ret (ts1, s).

(** ** src/optimizer.rs:645-653: the block size *)
Fixpoint shrink_block (fuel : nat) (n block : nat) : outcome nat :=
  if n <=? block * block then
    match fuel with O => OutOfFuel | S fuel' => shrink_block fuel' n (block / 2) end
  else Ret block.
Definition block_size (fuel : nat) (n : nat) : outcome nat := shrink_block fuel n (n / 2).

(** ** src/optimizer.rs:614-633 [load_prev_token_set]: the size whose file is
    loaded; [has n]: the file of that size exists *)
Fixpoint load_prev (fuel : nat) (has : nat -> bool) (n : nat) : outcome (option nat) :=
  if has n then Ret (Some n)
  else if 2 <? n then
    match fuel with O => OutOfFuel | S fuel' => load_prev fuel' has (n / 2) end
  else Ret None.

(** ** src/optimizer.rs:635-700 [optimize_all]: the sizes for which token sets are
    made, with the block; only [Dist8] is tried.  [raw]: the processing is "raw" *)
Fixpoint all_sizes (fuel : nat) (raw : bool) (n max : nat) : outcome (list (nat * nat)) :=
  if n <=? max then
    match fuel with
    | O => OutOfFuel
    | S fuel' =>
        block <- block_size fuel' n ;;
        r <- all_sizes fuel' raw (2 * n) max ;;
        Ret (if (n <? reserved_tokens LDist8) || (raw && (128 * 8 <=? n)) then r else (n, block) :: r)
    end
  else Ret [].
