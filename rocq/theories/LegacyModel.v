(** * Model of src/tokens.rs, src/stats.rs, src/tokenizer.rs and src/optimizer.rs:
    the earlier version of the program, with literals.

    These files are in the repository but src/main.rs does not declare them,
    so they are not part of the program that is built.  They are modelled from
    their text.  Names of the newer modules that would clash carry an [l]. *)
From Verif Require Import Base Utf8 JsonModel.
From Verif Require OptBytesModel.
From Coq Require Import String.
Local Open Scope list_scope.
Local Notation length := List.length.

(** ** src/tokens.rs *)

(** src/tokens.rs:7-25 [enum LiteralEncoding] *)
Inductive lenc := LBits1 | LBits2 | LBits4 | LAll | LDist2 | LDist4 | LDist8 | LHex.

(** src/tokens.rs:47-58 [literal_cost] *)
Definition literal_cost (e : lenc) : nat :=
  match e with
  | LAll => 256 | LBits1 => 8 | LBits2 => 4 | LBits4 => 2
  | LDist2 => 2 | LDist4 => 4 | LDist8 => 8 | LHex => 3
  end.

(** src/tokens.rs:60-71 [reserved_tokens] *)
Definition reserved_tokens (e : lenc) : nat :=
  match e with
  | LAll => 0 | LBits1 => 2 | LBits2 => 4 | LBits4 => 16
  | LDist2 => 1 | LDist4 => 1 | LDist8 => 1 | LHex => 0
  end.

(** src/tokens.rs:87-92 [enum TokenIdx] *)
Inductive tidx := LTok (i : nat) | LLit (b : byte) | LNone.

(** src/tokens.rs:94-100 [struct Token]; the field [suffix] is only set and read
    by the tokenizer, see [generate_suffixes]. *)
Record ltoken := mkLtok { lt_string : bstr; lt_mandatory : bool }.

(** src/tokens.rs:112-125 [struct TokenSet] *)
Record lset := mkLset { l_tokens : list ltoken; l_by_str : smap nat; l_enc : lenc }.

(** src/tokens.rs:161-163 [ntokens] *)
Definition l_ntokens (ts : lset) : nat := length (l_tokens ts) + reserved_tokens (l_enc ts).

(** the last lines of [add_mandatory_token] and [add_token] *)
Definition push_token (ts : lset) (s : bstr) (mandatory : bool) : lset :=
  mkLset (l_tokens ts ++ [mkLtok s mandatory]) (sinsert (l_by_str ts) s (length (l_tokens ts))) (l_enc ts).

(** src/tokens.rs:226-233 [add_mandatory_token] *)
Definition add_mandatory (ts : lset) (s : bstr) : outcome lset :=
  _ <- assert_that (negb (smem (l_by_str ts) s)) ;; Ret (push_token ts s true).

(** src/tokens.rs:235-247 [add_token] *)
Definition l_add_token (ts : lset) (s : bstr) : outcome lset :=
  match sget (l_by_str ts) s with
  | Some i =>
      t <- idx (l_tokens ts) i ;;
      _ <- assert_that (lt_mandatory t) ;; Ret ts
  | None => Ret (push_token ts s false)
  end.

(** src/tokens.rs:128-155 [TokenSet::new] *)
Definition mandatory_strings (e : lenc) : list bstr :=
  match e with
  | LHex => map (fun i => [n2b i]) (16 :: seq 48 10 ++ seq 97 6)
  | LAll => map (fun b => [b]) all_bytes
  | _ => []
  end.
Definition lset_new (e : lenc) : outcome lset :=
  mfold add_mandatory (mandatory_strings e) (mkLset [] [] e).

(** src/tokens.rs:249-260 [remove_token] *)
Definition rebuild (tokens : list ltoken) : smap nat :=
  fold_left (fun m p => sinsert m (lt_string (snd p)) (fst p)) (enum tokens) [].
Definition l_remove_token (ts : lset) (s : bstr) : outcome lset :=
  i <- unwrap (sget (l_by_str ts) s) ;;
  t <- idx (l_tokens ts) i ;;
  _ <- assert_that (negb (lt_mandatory t)) ;;
  tokens <- OptBytesModel.vremove (l_tokens ts) i ;;
  Ret (mkLset tokens (rebuild tokens) (l_enc ts)).

(** src/tokens.rs:301-318 [generate_suffixes]: the suffix of each token *)
Definition l_suffix (ts : lset) (t : ltoken) : outcome tidx :=
  let s := lt_string t in
  if length s =? 1 then Ret LNone
  else
    l <- checked_sub (length s) 1 ;;
    b <- idx s l ;;
    Ret (match find_map (fun start => sget (l_by_str ts) (skipn start s)) (seq 1 (length s - 1)) with
         | Some i => LTok i
         | None => LLit b
         end).
Definition generate_suffixes (ts : lset) : outcome (list tidx) := mmap (l_suffix ts) (l_tokens ts).

(** ** src/stats.rs *)

(** src/stats.rs:5-14 [struct TokenStats]; [pair_count] is an association list
    whose order stands for no order of the [HashMap]; its keys are [u32]. *)
Record lstats := mkLstats {
  ls_lit_cost : nat;
  ls_tokens : list nat;
  ls_pairs : list (N * nat);
  ls_literals : list nat;
  ls_scanned : nat
}.

(** src/stats.rs:17-28 *)
Definition lstats_new (n lit_cost : nat) : lstats := mkLstats lit_cost (repeat 0 n) [] (repeat 0 256) 0.

(** [*pair_count.entry(k).or_insert(0) += c] *)
Fixpoint key_add (m : list (N * nat)) (k : N) (c : nat) : list (N * nat) :=
  match m with
  | [] => [(k, c)]
  | (k', c') :: r => if (k =? k')%N then (k', c' + c) :: r else (k', c') :: key_add r k c
  end.

(** src/stats.rs:30-41 [add] *)
Fixpoint add_all (a b : list nat) : outcome (list nat) :=
  match a, b with
  | [], _ => Ret []
  | _ :: _, [] => Panic
  | x :: a', y :: b' => r <- add_all a' b' ;; Ret (x + y :: r)
  end.
Definition lstats_add (s o : lstats) : outcome lstats :=
  t <- add_all (ls_tokens s) (ls_tokens o) ;;
  l <- add_all (ls_literals s) (ls_literals o) ;;
  Ret (mkLstats (ls_lit_cost s) t (fold_left (fun m kc => key_add m (fst kc) (snd kc)) (ls_pairs o) (ls_pairs s))
                l (ls_scanned s + ls_scanned o)).

(** src/stats.rs:51-53 [cost] *)
Definition l_cost (s : lstats) : nat := sum (ls_tokens s) + ls_lit_cost s * sum (ls_literals s).

(** ** src/tokenizer.rs *)

(** src/tokenizer.rs:11-15 [struct SuffixState] *)
Record lstate := mkLstate { lss_suffix : bstr; lss_tok : tidx; lss_next : list nat }.

(** src/tokenizer.rs:28-31 [struct DynState] *)
Definition dstate := (nat * tidx)%type.

(** src/tokenizer.rs:33-36 [struct Tokenizer]; [lz_suffixes]: the [suffix] of each
    token *)
Record ltokenizer := mkLtokenizer { lz_set : lset; lz_suffixes : list tidx; lz_states : list lstate }.

(** src/tokenizer.rs:58-78: one prefix of a token *)
Definition l_prefix_state (ts : lset) (st : list lstate * smap nat) (pref : bstr) : outcome (list lstate * smap nat) :=
  let '(states, sm) := st in
  if smem sm pref then Ret st
  else
    l <- checked_sub (length pref) 1 ;;
    b <- idx pref l ;;
    let tok := match find_map (fun start => sget (l_by_str ts) (skipn start pref)) (seq 0 (length pref)) with
               | Some i => LTok i
               | None => LLit b
               end in
    Ret (states ++ [mkLstate pref tok []], sinsert sm pref (length states)).

(** src/tokenizer.rs:81-90: the literals *)
Definition l_literal_state (st : list lstate * smap nat) (b : byte) : list lstate * smap nat :=
  let '(states, sm) := st in
  if smem sm [b] then st
  else (states ++ [mkLstate [b] (LLit b) []], sinsert sm [b] (length states)).

(** src/tokenizer.rs:92-112: the [next] table of a state *)
Definition l_next (sm : smap nat) (suffix : bstr) (b : byte) : outcome nat :=
  let s := suffix ++ [b] in
  unwrap (find_map (fun start => sget sm (skipn start s)) (seq 0 (length s))).
Definition l_fill (sm : smap nat) (st : lstate) : outcome lstate :=
  nx <- mmap (l_next sm (lss_suffix st)) all_bytes ;;
  Ret (mkLstate (lss_suffix st) (lss_tok st) nx).

(** src/tokenizer.rs:49-115 [create_suffix_states] *)
Definition l_create_states (ts : lset) : outcome (list lstate) :=
  st <- mfold (l_prefix_state ts)
              (flat_map (fun t => map (fun e => firstn e (lt_string t)) (seq 1 (length (lt_string t)))) (l_tokens ts))
              ([mkLstate [] LNone []], sinsert [] [] 0) ;;
  let '(states, sm) := fold_left l_literal_state all_bytes st in
  mmap (l_fill sm) states.

(** src/tokenizer.rs:39-47 [Tokenizer::new] *)
Definition ltokenizer_new (ts : lset) : outcome ltokenizer :=
  suf <- generate_suffixes ts ;;
  states <- l_create_states ts ;;
  Ret (mkLtokenizer ts suf states).

(** src/tokenizer.rs:155-181: the [loop] along the suffixes; [x] is the suffix of
    the current token.  Every suffix is shorter, so the number of positions is
    enough fuel. *)
Fixpoint l_chain (fuel : nat) (tk : ltokenizer) (lit : nat) (cs : list dstate) (x : tidx) (best : dstate) : outcome dstate :=
  match x with
  | LNone => Ret best
  | LLit b =>
      l <- checked_sub (length cs) 1 ;;
      prev <- idx cs l ;;
      Ret (if fst prev + lit <? fst best then (fst prev + lit, LLit b) else best)
  | LTok i =>
      match fuel with
      | O => OutOfFuel
      | S fuel' =>
          t <- idx (l_tokens (lz_set tk)) i ;;
          l <- checked_sub (length cs) (length (lt_string t)) ;;
          prev <- idx cs l ;;
          suf <- idx (lz_suffixes tk) i ;;
          l_chain fuel' tk lit cs suf (if fst prev + 1 <? fst best then (fst prev + 1, LTok i) else best)
      end
  end.

(** src/tokenizer.rs:130-187: one byte *)
Definition l_scan_byte (tk : ltokenizer) (s : nat * list dstate) (b : byte) : outcome (nat * list dstate) :=
  let '(i, cs) := s in
  let lit := literal_cost (l_enc (lz_set tk)) in
  st <- idx (lz_states tk) i ;;
  j <- idx (lss_next st) (b2n b) ;;
  st' <- idx (lz_states tk) j ;;
  best <- match lss_tok st' with
          | LLit b' =>
              l <- checked_sub (length cs) 1 ;;
              prev <- idx cs l ;;
              Ret (fst prev + lit, LLit b')
          | LTok k =>
              t <- idx (l_tokens (lz_set tk)) k ;;
              l <- checked_sub (length cs) (length (lt_string t)) ;;
              prev <- idx cs l ;;
              suf <- idx (lz_suffixes tk) k ;;
              l_chain (length cs) tk lit cs suf (fst prev + 1, LTok k)
          | LNone => Panic
          end ;;
  Ret (j, cs ++ [best]).

(** src/tokenizer.rs:208: [(id << 16) + next_id] on [u32]; the addition wraps as
    in a release build *)
Definition pair_key (i j : nat) : N := ((N.of_nat i * 65536) mod 2 ^ 32 + N.of_nat j) mod 2 ^ 32.

(** src/tokenizer.rs:197-226: the [while] loop of [update_stats] *)
Fixpoint l_walk (fuel : nat) (tk : ltokenizer) (pair_stats : bool) (cs : list dstate) (pos : nat) (next : tidx) (s : lstats)
  : outcome lstats :=
  if pos =? 0 then Ret s
  else
    match fuel with
    | O => OutOfFuel
    | S fuel' =>
        d <- idx cs pos ;;
        match snd d with
        | LTok i =>
            tc <- idx_upd (ls_tokens s) i S ;;
            let pairs := match pair_stats, next with
                         | true, LTok j => key_add (ls_pairs s) (pair_key i j) 1
                         | _, _ => ls_pairs s
                         end in
            t <- idx (l_tokens (lz_set tk)) i ;;
            pos' <- checked_sub pos (length (lt_string t)) ;;
            l_walk fuel' tk pair_stats cs pos' (LTok i)
                   (mkLstats (ls_lit_cost s) tc pairs (ls_literals s) (ls_scanned s))
        | LLit b =>
            lc <- idx_upd (ls_literals s) (b2n b) S ;;
            pos' <- checked_sub pos 1 ;;
            l_walk fuel' tk pair_stats cs pos' (LLit b)
                   (mkLstats (ls_lit_cost s) (ls_tokens s) (ls_pairs s) lc (ls_scanned s))
        | LNone => Panic
        end
    end.

(** src/tokenizer.rs:117-226 [process_slice], [update_stats]; the buffer is
    cleared first *)
Definition l_process_slice (tk : ltokenizer) (pair_stats : bool) (bytes : bstr) (s : lstats) : outcome lstats :=
  '(_, cs) <- mfold (l_scan_byte tk) bytes (0, [(0, LNone)]) ;;
  pos <- checked_sub (length cs) 1 ;;
  l_walk pos tk pair_stats cs pos LNone
         (mkLstats (ls_lit_cost s) (ls_tokens s) (ls_pairs s) (ls_literals s) (ls_scanned s + pos)).

(** src/tokenizer.rs:229-266 [worker]: the samples one thread gets *)
Definition l_worker (tk : ltokenizer) (pair_stats : bool) (samples : list bstr) : outcome lstats :=
  mfold (fun s x => _ <- assert_that (negb (bstr_eqb x [])) ;; l_process_slice tk pair_stats x s) samples
        (lstats_new (length (l_tokens (lz_set tk))) (literal_cost (l_enc (lz_set tk)))).

(** src/tokenizer.rs:268-333 [tokenize_file].  [parts]: the samples each thread
    gets, in the order in which the threads finish.  What the threads do is
    not interleaved here; they share nothing but the queue (for the queue see
    BatchModel.v, where the newer version of this function is modelled). *)
Definition l_tokenize (ts : lset) (pair_stats : bool) (parts : list (list bstr)) : outcome lstats :=
  tk <- ltokenizer_new ts ;;
  rs <- mmap (l_worker tk pair_stats) parts ;;
  mfold lstats_add rs (lstats_new (length (l_tokens ts)) (literal_cost (l_enc ts))).
