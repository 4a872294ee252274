(** * Model of src/chars: token sets of characters and strings.

    This directory is in the repository but src/main.rs does not declare the
    module, so it is not part of the program that is built.  It is modelled
    from its text.  A [char] is the byte string that encodes it
    ([ch.to_string().as_bytes()]); [c as u32] is [code_point].  The JSON output
    (tokens.rs:28-34, 160-207, token_stats.rs:62-79) is modelled in
    CharsJsonModel.v. *)
From Verif Require Import Base Utf8 ProcessingModel CountModel.
From Verif Require OptBytesModel.
Notation slice := OptBytesModel.slice.
Notation vremove := OptBytesModel.vremove.

(** ** src/chars/tokens.rs *)

(** src/chars/tokens.rs:5-17 [enum CharsToken] *)
Inductive ctoken := CExt (n : nat) | CChar (c : bstr) | CStr (s : bstr).

(** src/chars/tokens.rs:36-42 [CharsToken::to_string] *)
Definition ctoken_string (t : ctoken) : option bstr :=
  match t with CExt _ => None | CChar c => Some c | CStr s => Some s end.

(** src/chars/tokens.rs:20-26 [CharsToken::bytes_len] *)
Definition bytes_len (t : ctoken) : outcome nat :=
  match t with CExt _ => Panic | CChar c => Ret (length c) | CStr s => Ret (length s) end.

(** src/chars/tokens.rs:66-72 [struct CharsTokenSet].  [lo_chars_enc] (an array
    of 256 vectors, all empty at first) and [hi_chars_enc] (a map) are one map
    here; [char_encoding] and [char_cost] treat a missing character below 256
    as one with an empty encoding. *)
Record cset := mkCset {
  c_tokens : list ctoken;
  c_enc : smap (list nat);
  c_by_str : smap nat
}.

(** src/chars/tokens.rs:75-87 [CharsTokenSet::new]; [i as u8] *)
Definition cset_new (num_ext : nat) : cset :=
  mkCset (map (fun i => CExt (i mod 256)) (seq 0 num_ext)) [] [].

(** src/chars/tokens.rs:103-109 [add_encoding] *)
Definition add_encoding (ts : cset) (ch : bstr) (enc : list nat) : cset :=
  mkCset (c_tokens ts) (sinsert (c_enc ts) ch enc) (c_by_str ts).

(** src/chars/tokens.rs:93-101 [add_char_token]; an index is [usize as u32],
    taken as below 2^32. *)
Definition add_char_token (ts : cset) (ch : bstr) : cset * nat :=
  let i := length (c_tokens ts) in
  (add_encoding (mkCset (c_tokens ts ++ [CChar ch]) (c_enc ts) (sinsert (c_by_str ts) ch i)) ch [i], i).

(** src/chars/tokens.rs:111-117 [add_string] *)
Definition add_string (ts : cset) (s : bstr) : cset * nat :=
  let i := length (c_tokens ts) in
  (mkCset (c_tokens ts ++ [CStr s]) (c_enc ts) (sinsert (c_by_str ts) s i), i).

(** [(ch as usize) < HI_CHAR_THRESHOLD], src/chars/tokens.rs:64 *)
Definition lo_char (ch : bstr) : bool := (code_point ch <? 256)%N.

(** src/chars/tokens.rs:123-130 [char_encoding] *)
Definition char_encoding (ts : cset) (ch : bstr) : outcome (list nat) :=
  match sget (c_enc ts) ch with
  | Some e => Ret e
  | None => if lo_char ch then Ret [] else Panic
  end.

(** src/chars/tokens.rs:132-141 [char_cost]; [len() as u8] *)
Definition char_cost (ts : cset) (ch : bstr) : nat :=
  match sget (c_enc ts) ch with
  | Some e => length e mod 256
  | None => if lo_char ch then 0 else 32
  end.

(** src/chars/tokens.rs:147-158 [max_bytes_in_token] *)
Definition max_bytes_in_token (ts : cset) : nat :=
  fold_left (fun m t => match ctoken_string t with None => m | Some s => Nat.max m (length s) end)
            (c_tokens ts) 4.

(** ** src/chars/token_stats.rs *)

(** src/chars/token_stats.rs:7-13 [struct CharsTokenStats]; [pair_counts] is an
    association list (its order stands for no order of the [HashMap]);
    [initial_size] is only used by the JSON output and left out. *)
Record cstats := mkCstats {
  cst_set : cset;
  cst_total : nat;
  cst_literals : nat;
  cst_pairs : list ((nat * nat) * nat)
}.

(** src/chars/token_stats.rs:16-24 *)
Definition cstats_new (ts : cset) : cstats := mkCstats ts 0 0 [].

(** [*pair_counts.entry(p).or_insert(0) += k] *)
Fixpoint pair_add (m : list ((nat * nat) * nat)) (p : nat * nat) (k : nat) : list ((nat * nat) * nat) :=
  match m with
  | [] => [(p, k)]
  | (q, n) :: r => if (fst p =? fst q) && (snd p =? snd q) then (q, n + k) :: r else (q, n) :: pair_add r p k
  end.

(** src/chars/token_stats.rs:30-36 [merge] *)
Definition cstats_merge (s o : cstats) : cstats :=
  mkCstats (cst_set s) (cst_total s + cst_total o) (cst_literals s + cst_literals o)
           (fold_left (fun m pc => pair_add m (fst pc) (snd pc)) (cst_pairs o) (cst_pairs s)).

(** src/chars/token_stats.rs:47-53 [count_token] *)
Definition count_token (s : cstats) (i : nat) : outcome cstats :=
  t <- idx (c_tokens (cst_set s)) i ;;
  Ret (mkCstats (cst_set s) (cst_total s + 1)
                (cst_literals s + match t with CChar _ => 1 | _ => 0 end) (cst_pairs s)).

(** src/chars/token_stats.rs:56-60 [count_literal] *)
Definition count_literal (s : cstats) (ch : bstr) : cstats :=
  mkCstats (cst_set s) (cst_total s + char_cost (cst_set s) ch) (cst_literals s + 1) (cst_pairs s).

(** ** src/chars/tokenizer.rs *)

(** src/chars/tokenizer.rs:4-10 [enum TokenId] *)
Inductive ctid := TTok (i : nat) | TLit (c : bstr) | TInvalid | TStart.

(** src/chars/tokenizer.rs:12-16 [struct TokenizerState] *)
Definition cstate := (nat * ctid)%type.

(** src/chars/tokenizer.rs:49-69: what the piece from [from] to [pos] would
    cost; [None] stands for [continue]. *)
Definition candidate (ts : cset) (bytes : bstr) (states : list cstate) (pos from : nat)
  : outcome (option cstate) :=
  '(cost, tid) <- idx states from ;;
  match tid with
  | TInvalid => Ret None
  | _ =>
      s <- slice bytes from pos ;;
      if utf8_valid s then
        match sget (c_by_str ts) s with
        | Some i => Ret (Some (cost + 1, TTok i))
        | None =>
            match chars s with
            | [ch] => Ret (Some (cost + char_cost ts ch, TLit ch))
            | _ => Ret None
            end
        end
      else Ret None
  end.

(** src/chars/tokenizer.rs:45-75: the best way to end at [pos]; the state is
    [(best_cost, best_token)], both set together; [from] runs over
    [pos.saturating_sub(max)..=(pos - 1)]. *)
Definition best_end (ts : cset) (bytes : bstr) (max : nat) (states : list cstate) (pos : nat)
  : outcome (option cstate) :=
  mfold (fun best from =>
           cand <- candidate ts bytes states pos from ;;
           match cand with
           | None => Ret best
           | Some c =>
               match best with
               | None => Ret (Some c)
               | Some b => if fst c <? fst b then Ret (Some c) else Ret best
               end
           end) (seq (pos - max) (pos - (pos - max))) None.

(** src/chars/tokenizer.rs:39-83: one round of the loop over positions *)
Definition forward_step (ts : cset) (bytes : bstr) (max : nat) (states : list cstate) (pos : nat)
  : outcome (list cstate) :=
  if match nth_error bytes pos with Some b => (128 <=? b2n b) && (b2n b <? 192) | None => false end
  then Ret (states ++ [(0, TInvalid)])
  else
    best <- best_end ts bytes max states pos ;;
    b <- unwrap best ;;
    Ret (states ++ [b]).

(** [i as u16] *)
Definition as_u16 (i : nat) : nat := N.to_nat (N.of_nat i mod 65536).

(** src/chars/tokenizer.rs:87-115: the walk back over the states, which counts
    the pieces; every piece is at least one byte long in a set built by the
    functions above (otherwise the code would not end); [idx as u16]. *)
Fixpoint walk_back (fuel : nat) (states : list cstate) (pos : nat) (next : option nat) (s : cstats)
  : outcome cstats :=
  match pos with
  | 0 => Ret s
  | _ =>
      match fuel with
      | O => OutOfFuel
      | S fuel' =>
          '(_, tid) <- idx states pos ;;
          match tid with
          | TTok i =>
              s <- count_token s i ;;
              let s := match next with
                       | Some n => mkCstats (cst_set s) (cst_total s) (cst_literals s)
                                            (pair_add (cst_pairs s) (as_u16 i, n) 1)
                       | None => s
                       end in
              t <- idx (c_tokens (cst_set s)) i ;;
              l <- bytes_len t ;;
              pos' <- checked_sub pos l ;;
              walk_back fuel' states pos' (Some (as_u16 i)) s
          | TLit ch =>
              pos' <- checked_sub pos (length ch) ;;
              walk_back fuel' states pos' None (count_literal s ch)
          | TInvalid | TStart => Panic
          end
      end
  end.

(** src/chars/tokenizer.rs:27-118 [process_slice] *)
Definition process_slice (ts : cset) (bytes : bstr) : outcome cstats :=
  states <- mfold (forward_step ts bytes (max_bytes_in_token ts)) (seq 1 (length bytes)) [(0, TStart)] ;;
  walk_back (length bytes) states (length bytes) None (cstats_new ts).

(** ** src/chars/optimizer.rs *)

(** A table of characters with their counts: [&[(char, u64)]]. *)
Notation chtable := (list (bstr * nat)).

(** src/chars/optimizer.rs:9-28 [count_chars].  The vector indexed by code
    points, without its zeros, is the list of the counted characters in
    increasing order, which is what is kept here. *)
Fixpoint bump (t : chtable) (c : bstr) : chtable :=
  match t with
  | [] => [(c, 1)]
  | (d, n) :: r =>
      match N.compare (code_point c) (code_point d) with
      | Lt => (c, 1) :: t
      | Eq => (d, S n) :: r
      | Gt => (d, n) :: bump r c
      end
  end.
Definition count_all (samples : list bstr) : chtable :=
  fold_left bump (flat_map chars samples) [].

(** src/chars/optimizer.rs:30-43 [tokenize] *)
Definition tokenize (ts : cset) (samples : list bstr) : outcome cstats :=
  mfold (fun s sample => o <- process_slice ts sample ;; Ret (cstats_merge s o)) samples (cstats_new ts).

(** src/chars/optimizer.rs:45-53 [struct CharsSplit] *)
Record csplit := mkCsplit { sp_lo : bstr; sp_top : bstr; sp_top_count : nat }.

(** src/chars/optimizer.rs:55-63 [HuffmanNode], [HuffmanNodeContent] *)
Inductive cnode :=
| NLeaf (count : nat) (ch : bstr)
| NInt (count : nat) (first second : cnode).

Definition n_count (n : cnode) : nat := match n with NLeaf c _ => c | NInt c _ _ => c end.

(** [min] of two characters *)
Definition char_min (a b : bstr) : bstr := if (code_point a <=? code_point b)%N then a else b.

(** src/chars/optimizer.rs:65-89 [node_to_split] *)
Fixpoint node_to_split (n : cnode) : csplit :=
  match n with
  | NLeaf c ch => mkCsplit ch ch c
  | NInt _ a b =>
      let sa := node_to_split a in
      let sb := node_to_split b in
      let '(top, top_count) :=
        if sp_top_count sb <? sp_top_count sa then (sp_top sa, sp_top_count sa)
        else (sp_top sb, sp_top_count sb) in
      mkCsplit (char_min (sp_lo sa) (sp_lo sb)) top top_count
  end.

(** src/chars/optimizer.rs:101-110: the first adjacent pair of least joint
    count; the state is [(min_pair_count, best_idx)]. *)
Definition best_pair (nodes : list cnode) : outcome (option (nat * nat)) :=
  mfold (fun best i =>
           a <- idx nodes i ;;
           b <- idx nodes (i + 1) ;;
           let c := n_count a + n_count b in
           match best with
           | None => Ret (Some (c, i))
           | Some (m, _) => if c <? m then Ret (Some (c, i)) else Ret best
           end) (seq 0 (length nodes - 1)) None.

(** src/chars/optimizer.rs:100-122: the [while] loop; every round drops one
    node, so [length nodes] is enough fuel. *)
Fixpoint merge_nodes (fuel parts : nat) (nodes : list cnode) : outcome (list cnode) :=
  if parts <? length nodes then
    match fuel with
    | O => OutOfFuel
    | S fuel' =>
        best <- best_pair nodes ;;
        '(_, i) <- unwrap best ;;
        second <- idx nodes (i + 1) ;;
        rest <- vremove nodes (i + 1) ;;
        first <- idx rest i ;;
        nodes' <- idx_upd rest i (fun _ => NInt (n_count first + n_count second) first second) ;;
        merge_nodes fuel' parts nodes'
    end
  else Ret nodes.

(** src/chars/optimizer.rs:91-130 [optimize_splits] *)
Definition optimize_splits (counts : chtable) (parts : nat) : outcome (list csplit) :=
  nodes <- merge_nodes (length counts) parts (map (fun p => NLeaf (snd p) (fst p)) counts) ;;
  Ret (map node_to_split nodes).

(** [Ord] of [(char, u64)] *)
Definition entry_cmp (a b : bstr * nat) : comparison :=
  match N.compare (code_point (fst a)) (code_point (fst b)) with
  | Eq => Nat.compare (snd a) (snd b)
  | c => c
  end.
Definition entry_ltb (a b : bstr * nat) : bool :=
  match entry_cmp a b with Lt => true | _ => false end.

(** [v.binary_search(&k).unwrap_err()], as in OptBytesModel.v: a panic if [k]
    occurs or the slice is not sorted. *)
Fixpoint entries_sorted (v : chtable) : bool :=
  match v with
  | x :: ((y :: _) as r) => cmp_leb (entry_cmp x y) && entries_sorted r
  | _ => true
  end.
Definition search_err (v : chtable) (k : bstr * nat) : outcome nat :=
  _ <- assert_that (entries_sorted v) ;;
  _ <- assert_that (negb (existsb (fun x => match entry_cmp x k with Eq => true | _ => false end) v)) ;;
  Ret (length (filter (fun x => entry_ltb x k) v)).

(** src/chars/optimizer.rs:151-165 and 188-204 (the same code twice): the
    entries of the [i]-th split without its top character; [None] stands for
    [continue]. *)
Definition sub_table (counts : chtable) (splits : list csplit) (i : nat) (sp : csplit)
  : outcome (option chtable) :=
  lo <- search_err counts (sp_lo sp, 0) ;;
  hi <- (if i =? length splits - 1 then Ret (length counts)
         else next <- idx splits (i + 1) ;; search_err counts (sp_lo next, 0)) ;;
  if hi =? lo + 1 then Ret None
  else
    sub <- slice counts lo hi ;;
    top_idx <- search_err sub (sp_top sp, 0) ;;
    sub' <- vremove sub top_idx ;;
    Ret (Some sub').

(** src/chars/optimizer.rs:132-175 [optimize_ext_encoding]; every recursive call
    is on a shorter table, so [length counts] is enough fuel. *)
Fixpoint optimize_ext_encoding (fuel : nat) (counts : chtable) (n_ext : nat)
  : outcome (list (bstr * list nat)) :=
  if length counts <=? n_ext then
    Ret (map (fun p => (fst (snd p), [fst p])) (enum counts))
  else
    match fuel with
    | O => OutOfFuel
    | S fuel' =>
        splits <- optimize_splits counts n_ext ;;
        mfold (fun encs p =>
                 let '(i, sp) := p in
                 let encs := encs ++ [(sp_top sp, [i])] in
                 sub <- sub_table counts splits i sp ;;
                 match sub with
                 | None => Ret encs
                 | Some sub =>
                     sub_encs <- optimize_ext_encoding fuel' sub n_ext ;;
                     Ret (encs ++ map (fun e => (fst e, i :: snd e)) sub_encs)
                 end) (enum splits) []
    end.

(** src/chars/optimizer.rs:177-218 [optimize_chars] *)
Definition optimize_chars (counts : chtable) (n_char n_ext : nat) : outcome cset :=
  splits <- optimize_splits counts n_char ;;
  mfold (fun ts e =>
           let '(i, sp) := e in
           let '(ts, _) := add_char_token ts (sp_top sp) in
           sub <- sub_table counts splits i sp ;;
           match sub with
           | None => Ret ts
           | Some sub =>
               encs <- optimize_ext_encoding (length sub) sub n_ext ;;
               Ret (fold_left (fun ts e => add_encoding ts (fst e) ((n_ext + i) :: snd e)) encs ts)
           end) (enum splits) (cset_new n_ext).

(** src/chars/optimizer.rs:231-235: the cost of a table *)
Definition table_cost (counts : chtable) (ts : cset) : outcome nat :=
  mfold (fun total p => e <- char_encoding ts (fst p) ;; Ret (total + length e * snd p)) counts 0.

(** src/chars/optimizer.rs:226-241: one number of extension tokens *)
Definition ext_round (counts : chtable) (ntokens : nat) (best : option (cset * nat)) (n_ext : nat)
  : outcome (option (cset * nat)) :=
  n_char <- checked_sub ntokens n_ext ;;
  ts <- optimize_chars counts n_char n_ext ;;
  total <- table_cost counts ts ;;
  match best with
  | None => Ret (Some (ts, total))
  | Some (_, b) => if total <? b then Ret (Some (ts, total)) else Ret best
  end.

(** src/chars/optimizer.rs:220-244 [optimize_chars_by_ext]; [seq 2 (m - 1)] is
    [2..=m]. *)
Definition optimize_chars_by_ext (counts : chtable) (ntokens : nat) : outcome cset :=
  n1 <- checked_sub ntokens 1 ;;
  best <- mfold (ext_round counts ntokens) (seq 2 (Nat.min n1 8 - 1)) None ;;
  '(ts, _) <- unwrap best ;;
  Ret ts.

(** src/chars/optimizer.rs:246-262 [select_token_bpe]; [pairs] lists the map in
    the order in which it is iterated. *)
Definition select_token_bpe (ts : cset) (pairs : list ((nat * nat) * nat)) : outcome bstr :=
  let best := fold_left (fun best pc =>
                match best with
                | None => Some pc
                | Some b => if snd b <? snd pc then Some pc else best
                end) pairs None in
  '(p, _) <- unwrap best ;;
  a <- idx (c_tokens ts) (fst p) ;;
  sa <- unwrap (ctoken_string a) ;;
  b <- idx (c_tokens ts) (snd p) ;;
  sb <- unwrap (ctoken_string b) ;;
  Ret (sa ++ sb).

(** src/chars/optimizer.rs:264-300 [optimize_chars_tokens] without the final
    file.  [order k] is the iteration order of the [k]-th map; [k] counts the
    rounds; every round adds one token, so [ntokens] is enough fuel. *)
Fixpoint chars_loop (fuel : nat) (order : nat -> list ((nat * nat) * nat) -> list ((nat * nat) * nat))
    (samples : list bstr) (ntokens k : nat) (best : cstats) : outcome cstats :=
  if length (c_tokens (cst_set best)) <? ntokens then
    match fuel with
    | O => OutOfFuel
    | S fuel' =>
        s <- select_token_bpe (cst_set best) (order k (cst_pairs best)) ;;
        let ts := fst (add_string (cst_set best) s) in
        best' <- tokenize ts samples ;;
        chars_loop fuel' order samples ntokens (S k) best'
    end
  else Ret best.

Definition optimize_chars_tokens (order : nat -> list ((nat * nat) * nat) -> list ((nat * nat) * nat))
    (samples : list bstr) (ntokens : nat) : outcome cstats :=
  ts <- optimize_chars_by_ext (count_all samples) ntokens ;;
  best <- tokenize ts samples ;;
  chars_loop ntokens order samples ntokens 0 best.
