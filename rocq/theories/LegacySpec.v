(** * What the older tokenizer (src/tokenizer.rs) is expected to do, stated
    without its tables. *)
From Verif Require Import Base LegacyModel.

(** The token sets a caller can make. *)
Inductive l_built : lset -> Prop :=
| lb_new e ts : lset_new e = Ret ts -> l_built ts
| lb_add ts s ts' : l_built ts -> l_add_token ts s = Ret ts' -> l_built ts'
| lb_remove ts s ts' : l_built ts -> l_remove_token ts s = Ret ts' -> l_built ts'.

Definition l_strings (ts : lset) : list bstr := map lt_string (l_tokens ts).

(** An element of a tokenization is a token or a literal byte. *)
Definition l_piece_string (ts : lset) (x : tidx) : option bstr :=
  match x with
  | LTok i => nth_error (l_strings ts) i
  | LLit b => Some [b]
  | LNone => None
  end.

Inductive l_segments (ts : lset) : list tidx -> bstr -> Prop :=
| ls_nil : l_segments ts [] []
| ls_cons x xs s r : l_piece_string ts x = Some s -> l_segments ts xs r -> l_segments ts (x :: xs) (s ++ r).

Definition l_piece_cost (e : lenc) (x : tidx) : nat :=
  match x with LTok _ => 1 | LLit _ => literal_cost e | LNone => 0 end.
Definition l_seg_cost (e : lenc) (xs : list tidx) : nat := sum (map (l_piece_cost e) xs).

Definition l_optimal (ts : lset) (xs : list tidx) (w : bstr) : Prop :=
  l_segments ts xs w /\ forall ys, l_segments ts ys w -> l_seg_cost (l_enc ts) xs <= l_seg_cost (l_enc ts) ys.

(** Of all cheapest ways to cut, the one whose pieces are, from the end of the
    text, the longest possible. *)
Definition l_canonical (ts : lset) (xs : list tidx) (w : bstr) : Prop :=
  l_optimal ts xs w /\
  forall a x b s y, xs = a ++ x :: b -> l_segments ts a s -> l_piece_string ts x = Some y ->
  forall zs z y', l_optimal ts (zs ++ [z]) (s ++ y) -> l_piece_string ts z = Some y' -> length y' <= length y.

Definition tidx_eq_dec (x y : tidx) : {x = y} + {x <> y}.
Proof. decide equality; [apply Nat.eq_dec|apply Byte.byte_eq_dec]. Qed.

(** Tokens that follow each other directly. *)
Fixpoint l_adj (xs : list tidx) : list (nat * nat) :=
  match xs with
  | [] => []
  | x :: r =>
      match x, r with
      | LTok i, LTok j :: _ => (i, j) :: l_adj r
      | _, _ => l_adj r
      end
  end.

(** The value of a key, 0 if it is missing. *)
Definition key_get (m : list (N * nat)) (k : N) : nat :=
  sum (map snd (filter (fun kc => (fst kc =? k)%N) m)).

Definition has_key (k : N) (ij : nat * nat) : bool := (pair_key (fst ij) (snd ij) =? k)%N.

(** The statistics [s] are those of the samples, each cut by [f]. *)
Record l_total (ts : lset) (pair_stats : bool) (f : bstr -> list tidx) (samples : list bstr) (s : lstats) : Prop := {
  lt_lit_cost : ls_lit_cost s = literal_cost (l_enc ts);
  lt_tokens_length : length (ls_tokens s) = length (l_tokens ts);
  lt_tokens : forall i, nth i (ls_tokens s) 0 = count_occ tidx_eq_dec (flat_map f samples) (LTok i);
  lt_literals_length : length (ls_literals s) = 256;
  lt_literals : forall b, nth (b2n b) (ls_literals s) 0 = count_occ tidx_eq_dec (flat_map f samples) (LLit b);
  lt_scanned : ls_scanned s = length (concat samples);
  lt_pairs_nodup : NoDup (map fst (ls_pairs s));
  lt_pairs_pos : forall k c, In (k, c) (ls_pairs s) -> 0 < c;
  lt_pairs : forall k, key_get (ls_pairs s) k =
      if pair_stats then length (filter (has_key k) (flat_map (fun w => l_adj (f w)) samples)) else 0
}.

(** [c] is the least cost of cutting the samples. *)
Definition l_costs (ts : lset) (samples : list bstr) (c : nat) : Prop :=
  exists f : bstr -> list tidx, (forall w, l_optimal ts (f w) w) /\ c = sum (map (fun w => l_seg_cost (l_enc ts) (f w)) samples).

(** A token set without the empty token and without zero bytes in its tokens. *)
Definition clean (ts : lset) : Prop :=
  l_built ts /\ forall s, In s (l_strings ts) -> s <> [] /\ ~ In (n2b 0) s.

(** How often the byte [b] is a piece of its own, as a token or as a literal. *)
Definition uses (ts : lset) (f : bstr -> list tidx) (samples : list bstr) (b : byte) : nat :=
  length (filter (fun x => match l_piece_string ts x with Some y => bstr_eqb [b] y | None => false end) (flat_map f samples)).

(** The strings that could become tokens, with the number of their occurrences in the
    samples cut by [f]: a literal, or two tokens that follow each other. *)
Inductive candidate (ts : lset) (f : bstr -> list tidx) (samples : list bstr) : bstr -> nat -> Prop :=
| cand_literal b : In (LLit b) (flat_map f samples) ->
    candidate ts f samples [b] (count_occ tidx_eq_dec (flat_map f samples) (LLit b))
| cand_pair i j x y : In (i, j) (flat_map (fun w => l_adj (f w)) samples) ->
    nth_error (l_strings ts) i = Some x -> nth_error (l_strings ts) j = Some y ->
    candidate ts f samples (x ++ y)
      (length (filter (fun ab => (fst ab =? i) && (snd ab =? j)) (flat_map (fun w => l_adj (f w)) samples))).
