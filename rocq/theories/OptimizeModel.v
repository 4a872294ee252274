(** * Model of src/optimize.rs: the search for a good token set. *)
From Coq Require Import ZArith.
From Verif Require Import Base TokenSetModel TokenizerModel BatchModel CacheModel OptBytesModel.

(** src/optimize.rs:15-24 [is_valid_token]: [is] is what is left of
    [0..(s.len() - 2)].  The three index operations are evaluated always, the
    program's [&&] skips some of them. *)
Fixpoint valid_loop (s : bstr) (is : list nat) : outcome bool :=
  match is with
  | [] => Ret true
  | i :: r =>
      a <- idx s i ;; b <- idx s (i + 1) ;; c <- idx s (i + 2) ;;
      if Byte.eqb a x0a && Byte.eqb b x0a && negb (Byte.eqb c x0a) then Ret false
      else valid_loop s r
  end.

Definition is_valid_token (s : bstr) : outcome bool :=
  n <- checked_sub (length s) 2 ;; valid_loop s (seq 0 n).

(** src/optimize.rs:60-78: the loop over the candidate pairs; the result is
    [(new_token, token_count)]. *)
Fixpoint bpe_loop (s : stats) (pairs : list nat) (new_token : bstr) : outcome (bstr * nat) :=
  match pairs with
  | [] => Ret (new_token, 0)
  | p :: rest =>
      let n := ntokens (st_token_set s) in
      t1 <- idx (tokens (st_token_set s)) (p / n) ;;
      t2 <- idx (tokens (st_token_set s)) (p mod n) ;;
      match t1, t2 with
      | Str s1, Str s2 =>
          let new_token := s1 ++ s2 in
          v <- is_valid_token new_token ;;
          if v then c <- idx (pair_counts s) p ;; Ret (new_token, c)
          else bpe_loop s rest new_token
      | _, _ => Panic
      end
  end.

(** src/optimize.rs:51-92 [add_token_bpe].  The key [-(count as i64)] of the
    stable sort is modelled by comparing counts the other way round (counts
    below 2^63); the [dbg!] output is left out. *)
Definition add_token_bpe (s : stats) : outcome (option (tokenset * nat)) :=
  let count i := nth i (pair_counts s) 0 in
  let pairs := stable_sort (fun x y => count y <=? count x)
                 (filter (fun i => 0 <? count i) (seq 0 (length (pair_counts s)))) in
  '(new_token, token_count) <- bpe_loop s pairs [] ;;
  if bstr_eqb new_token [] then Ret None
  else '(ts, _) <- add_token (st_token_set s) new_token ;; Ret (Some (ts, token_count)).

(** src/optimize.rs:95-113: the table [byte_cost] *)
Definition byte_costs (ts : tokenset) : outcome (list (option nat)) :=
  let set_cost (bc : list (option nat)) (b : byte) (n : nat) :=
    old <- idx bc (b2n b) ;;
    _ <- assert_that (match old with None => true | Some _ => false end) ;;
    idx_upd bc (b2n b) (fun _ => Some n) in
  c1 <- mfold (fun bc t => match t with Str [b] => set_cost bc b 1 | _ => Ret bc end)
              (tokens ts) (repeat None 256) ;;
  mfold (fun bc q => match seq_string q with
                     | [b] => set_cost bc b (length (seq_tokens q))
                     | _ => Ret bc
                     end) (sequences ts) c1.

(** src/optimize.rs:94-134 [count_tokens_in_bytes] *)
Definition count_tokens_in_bytes (ts : tokenset) (s : stats) : outcome nat :=
  bc <- byte_costs ts ;;
  t1 <- mfold (fun total p =>
          match snd p with
          | Str [b] => o <- idx bc (b2n b) ;; c <- unwrap o ;;
                       k <- idx (token_counts s) (fst p) ;; Ret (total + c * k)
          | _ => Ret total
          end) (enum (tokens (st_token_set s))) 0 ;;
  mfold (fun total p =>
          match seq_string (snd p) with
          | [b] => o <- idx bc (b2n b) ;; c <- unwrap o ;;
                   k <- idx (seq_counts s) (fst p) ;; Ret (total + c * k)
          | _ => Ret total
          end) (enum (sequences (st_token_set s))) t1.

(** src/optimize.rs:136-152 [add_byte]; the difference is an [i64]. *)
Definition add_byte (bo : bytes_optimizer) (s : stats) : outcome (option (tokenset * Z)) :=
  let ts := st_token_set s in
  old_count <- count_tokens_in_bytes ts s ;;
  n <- checked_sub (ntokens ts) (n_long_tokens ts) ;;
  new <- bo s (n + 1) ;;
  if ntokens new =? ntokens ts then Ret None
  else
    new_count <- count_tokens_in_bytes new s ;;
    Ret (Some (new, (Z.of_nat old_count - Z.of_nat new_count)%Z)).

(** ** Programs that ask the statistics cache and save token sets

    [PAsk] is a call of [TokenizerCache::get_stats_with_pairs] or [get_stats],
    [PSave] a call of [save_tokens].  Printing is left out. *)
Inductive prog (A : Type) : Type :=
| PDone (o : outcome A)
| PAsk (r : request) (k : stats -> prog A)
| PSave (ts : tokenset) (k : prog A).
Arguments PDone {A} o.
Arguments PAsk {A} r k.
Arguments PSave {A} ts k.

Fixpoint pbind {A B} (m : prog A) (f : A -> prog B) : prog B :=
  match m with
  | PDone (Ret a) => f a
  | PDone Panic => PDone Panic
  | PDone OutOfFuel => PDone OutOfFuel
  | PAsk r k => PAsk r (fun s => pbind (k s) f)
  | PSave ts k => PSave ts (pbind k f)
  end.

Notation "x <~ m ;; k" := (pbind m (fun x => k))
  (at level 61, m at next level, right associativity).

Definition pret {A} (a : A) : prog A := PDone (Ret a).
Definition get_stats (ts : tokenset) : prog stats := PAsk (NoPairs ts) pret.
Definition get_stats_with_pairs (ts : tokenset) : prog stats := PAsk (WithPairs ts) pret.

Section Optimize.
(** The byte optimizer ([BO] in the program); the order in which the unstable
    sort of src/optimize.rs:222 leaves its elements, given the removal counts;
    whether more than a minute has passed since the last save after the given
    round. *)
Variables (bo : bytes_optimizer) (order : smap nat -> list bstr -> list bstr) (clock : nat -> bool).

(** src/optimize.rs:154-176 [add_token] *)
Definition opt_add_token (ts : tokenset) : prog (option tokenset) :=
  s <~ get_stats_with_pairs ts ;;
  by_byte <~ PDone (add_byte bo s) ;;
  by_pair <~ PDone (add_token_bpe s) ;;
  pret (match by_byte, by_pair with
        | None, None => None
        | Some (t, _), None => Some t
        | None, Some (t, _) => Some t
        | Some (tb, cb), Some (tp, cp) => if (Z.of_nat cp <? cb)%Z then Some tb else Some tp
        end).

(** src/optimize.rs:199-212: trading a byte token for a BPE token *)
Definition trade_byte (ts : tokenset) (n : nat) (s : stats) : prog (option stats) :=
  m <~ PDone (checked_sub (ntokens ts) (n_long_tokens ts)) ;;
  if min_bytes_ext_tokens ts <? m then
    m1 <~ PDone (checked_sub m 1) ;;
    new <~ PDone (bo s m1) ;;
    n1 <~ PDone (checked_sub n 1) ;;
    _ <~ PDone (assert_that (ntokens new =? n1)) ;;
    new_stats <~ get_stats_with_pairs new ;;
    by_pair <~ PDone (add_token_bpe new_stats) ;;
    match by_pair with
    | Some (t, _) =>
        new_stats <~ get_stats t ;;
        pret (if total_tokens new_stats <? total_tokens s then Some new_stats else None)
    | None => pret None
    end
  else pret None.

(** src/optimize.rs:225-243: trying to replace each of the tokens of [l]; the
    result carries the removal counts, which the caller keeps. *)
Fixpoint replace_loop (ts : tokenset) (n : nat) (s : stats) (l : list bstr) (rc : smap nat)
  : prog (option stats * smap nat) :=
  match l with
  | [] => pret (None, rc)
  | x :: rest =>
      let rc := sinsert rc x (match sget rc x with Some k => k | None => 0 end + 1) in
      i <~ PDone (unwrap (find_token ts x)) ;;
      new <~ PDone (remove_token ts i) ;;
      n1 <~ PDone (checked_sub n 1) ;;
      _ <~ PDone (assert_that (ntokens new =? n1)) ;;
      added <~ opt_add_token new ;;
      match added with
      | Some newer =>
          newer_stats <~ get_stats newer ;;
          if total_tokens newer_stats <? total_tokens s then pret (Some newer_stats, rc)
          else replace_loop ts n s rest rc
      | None => replace_loop ts n s rest rc
      end
  end.

(** src/optimize.rs:178-247 [remove_add_token] *)
Definition remove_add_token (ts : tokenset) (n : nat) (rc : smap nat)
  : prog (option stats * smap nat) :=
  if ntokens ts <? n then
    added <~ opt_add_token ts ;;
    match added with
    | Some new => s <~ get_stats new ;; pret (Some s, rc)
    | None => pret (None, rc)
    end
  else
    _ <~ PDone (assert_that (ntokens ts =? n)) ;;
    s <~ get_stats ts ;;
    traded <~ trade_byte ts n s ;;
    match traded with
    | Some new_stats => pret (Some new_stats, rc)
    | None =>
        let to_remove := flat_map (fun t => match t with
                                            | Str x => if 1 <? length x then [x] else []
                                            | Ext _ => []
                                            end) (tokens ts) in
        replace_loop ts n s (order rc to_remove) rc
    end.

(** src/optimize.rs:249-285 [optimization_step] *)
Definition optimization_step (ts : tokenset) (n : nat) (rc : smap nat)
  : prog (option tokenset * smap nat) :=
  s <~ get_stats ts ;;
  m <~ PDone (checked_sub n (n_long_tokens ts)) ;;
  new <~ PDone (bo s m) ;;
  new_stats <~ get_stats new ;;
  if total_tokens new_stats <? total_tokens s then pret (Some (st_token_set new_stats), rc)
  else
    r <~ remove_add_token ts n rc ;;
    match r with
    | (Some new_stats, rc') =>
        _ <~ PDone (assert_that (ntokens (st_token_set new_stats) <=? n)) ;;
        pret (Some (st_token_set new_stats), rc')
    | (None, rc') => pret (None, rc')
    end.

(** src/optimize.rs:311-327: the loop.  [fuel] bounds the number of rounds,
    [round] numbers them. *)
Fixpoint optimize_loop (fuel round : nat) (ts : tokenset) (n : nat) (rc : smap nat)
  : prog tokenset :=
  match fuel with
  | O => PDone OutOfFuel
  | S fuel' =>
      r <~ optimization_step ts n rc ;;
      match r with
      | (Some new, rc') =>
          if clock round then PSave new (optimize_loop fuel' (S round) new n rc')
          else optimize_loop fuel' (S round) new n rc'
      | (None, _) => pret ts
      end
  end.

(** src/optimize.rs:294-331 [optimize_tokenset_impl] *)
Definition optimize_impl (fuel : nat) (ts : tokenset) (n : nat) : prog stats :=
  _ <~ get_stats ts ;;
  ts <~ optimize_loop fuel 0 ts n [] ;;
  ts <~ PDone (ts_sort ts) ;;
  get_stats ts.
End Optimize.

(** src/optimize.rs:357-388: the byte optimizer for a token type *)
Definition optimizer_for (t : token_type) : bytes_optimizer :=
  match t with
  | Bits1 | Bits2 | Bits4 => simple_bytes
  | Bytes => noop_bytes
  | BytesHuff => huff_bytes
  end.

(** src/optimize.rs:344-355: the initial token set *)
Definition initial_set (n : nat) (p : processing) (t : token_type) (pretrained : option tokenset)
  : prog tokenset :=
  match pretrained, t with
  | Some ts, _ => pret ts
  | None, Bits1 => pret (new_bits1 p true)
  | None, Bits2 => pret (new_bits2 p true)
  | None, Bits4 => pret (new_bits4 p true)
  | None, Bytes => pret (new_bytes p)
  | None, BytesHuff => s <~ get_stats (new_bytes p) ;; PDone (huff_bytes s n)
  end.

(** src/optimize.rs:333-389 [optimize_tokenset], also 416-426
    [Optimizer::optimize] *)
Definition optimize_tokenset (order : smap nat -> list bstr -> list bstr) (clock : nat -> bool)
           (fuel n : nat) (p : processing) (t : token_type) (pretrained : option tokenset)
  : prog stats :=
  ts <~ initial_set n p t pretrained ;;
  optimize_impl (optimizer_for t) order clock fuel ts n.

(** ** Executions

    The cache is created empty by [optimize_tokenset] (line 342).  [step] is one
    call of the cache or one save, [saves] the token sets saved so far. *)
Section Exec.
Variables (nthreads : nat) (total : N) (samples : list bstr) (init : option nat).

Record machine (A : Type) := mkMachine {
  m_cache : smap stats;
  m_saved : list tokenset;
  m_prog : prog A
}.
Arguments mkMachine {A}.
Arguments m_cache {A}.
Arguments m_saved {A}.
Arguments m_prog {A}.

Inductive step {A} : machine A -> machine A -> Prop :=
| step_ask c sv r k a c' : call nthreads total samples init c r a c' ->
    step (mkMachine c sv (PAsk r k)) (mkMachine c' sv (k a))
| step_save c sv ts k : step (mkMachine c sv (PSave ts k)) (mkMachine c (sv ++ [ts]) k).

Inductive steps {A} : machine A -> machine A -> Prop :=
| steps_refl m : steps m m
| steps_more m1 m2 m3 : steps m1 m2 -> step m2 m3 -> steps m1 m3.
End Exec.
Arguments mkMachine {A}.
Arguments m_cache {A}.
Arguments m_saved {A}.
Arguments m_prog {A}.
