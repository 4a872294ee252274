(** * Specification of tokenization, independent of the algorithm.

    A text is cut into pieces; each piece is a string token or a sequence of
    the token set.  The emitted token stream replaces every sequence by the
    tokens it stands for. *)
From Verif Require Import Base TokenSetModel TokenizerModel.

Inductive piece := PTok (i : nat) | PSeq (i : nat).

Definition piece_eq_dec (p q : piece) : {p = q} + {p <> q}.
Proof. decide equality; apply Nat.eq_dec. Defined.

(** The text a piece stands for; [None] for a piece that is not in the set. *)
Definition piece_string (ts : tokenset) (p : piece) : option bstr :=
  match p with
  | PTok i => match nth_error (tokens ts) i with
              | Some (Str s) => Some s
              | _ => None
              end
  | PSeq i => option_map seq_string (nth_error (sequences ts) i)
  end.

(** The tokens a piece emits. *)
Definition piece_tokens (ts : tokenset) (p : piece) : list nat :=
  match p with
  | PTok i => [i]
  | PSeq i => match nth_error (sequences ts) i with
              | Some q => seq_tokens q
              | None => []
              end
  end.

(** [segments ts ps text]: the strings of the pieces [ps] concatenate to [text]. *)
Inductive segments (ts : tokenset) : list piece -> bstr -> Prop :=
| seg_nil : segments ts [] []
| seg_cons p ps s r :
    piece_string ts p = Some s -> segments ts ps r -> segments ts (p :: ps) (s ++ r).

(** The emitted token stream. *)
Definition stream (ts : tokenset) (ps : list piece) : list nat :=
  flat_map (piece_tokens ts) ps.

(** [ps] is a segmentation of [text] emitting the fewest tokens. *)
Definition optimal (ts : tokenset) (ps : list piece) (text : bstr) : Prop :=
  segments ts ps text /\
  forall qs, segments ts qs text -> length (stream ts ps) <= length (stream ts qs).

(** Read from the end, every piece is the longest that any optimal
    segmentation of the text up to its end could end with. *)
Definition longest_last (ts : tokenset) (ps : list piece) : Prop :=
  forall l p r u, ps = l ++ p :: r -> segments ts (l ++ [p]) u ->
  forall qs q y z, optimal ts (qs ++ [q]) u ->
    piece_string ts p = Some y -> piece_string ts q = Some z -> length z <= length y.

(** [n] is the least number of tokens that encodes [text]. *)
Definition min_tokens (ts : tokenset) (text : bstr) (n : nat) : Prop :=
  exists ps, optimal ts ps text /\ n = length (stream ts ps).

(** Occurrences of token piece [i] directly followed by token piece [j]. *)
Fixpoint adj (i j : nat) (ps : list piece) : nat :=
  match ps with
  | [] => 0
  | p :: r =>
      (match p, r with
       | PTok a, PTok b :: _ => if (a =? i) && (b =? j) then 1 else 0
       | _, _ => 0
       end) + adj i j r
  end.

(** All strings denoted by string tokens and sequences. *)
Definition strings (ts : tokenset) : list bstr :=
  flat_map (fun t => match t with Str s => [s] | Ext _ => [] end) (tokens ts)
  ++ map seq_string (sequences ts).

(** Token sets a tokenizer can be built for. *)
Definition usable (ts : tokenset) : Prop :=
  NoDup (strings ts) /\ ~ In [] (strings ts) /\ forall b, In [b] (strings ts).

(** Sequences refer to existing tokens. *)
Definition seqs_in_range (ts : tokenset) : Prop :=
  forall q t, In q (sequences ts) -> In t (seq_tokens q) -> t < ntokens ts.

(** Statistics that belong to the token set [ts]. *)
Definition matches (ts : tokenset) (s : stats) : Prop :=
  st_token_set s = ts /\
  length (token_counts s) = ntokens ts /\
  length (seq_counts s) = length (sequences ts) /\
  length (pair_counts s) = ntokens ts * ntokens ts.

(** [s'] is [s] after counting the pieces [ps] of [text] once. *)
Record counted (ts : tokenset) (ps : list piece) (text : bstr) (s s' : stats) : Prop := {
  counted_matches : matches ts s';
  counted_total : total_tokens s' = total_tokens s + length (stream ts ps);
  counted_initial : initial_size s' = initial_size s;
  counted_scanned : scanned_bytes s' = scanned_bytes s + length text;
  counted_tokens : forall t,
      nth t (token_counts s') 0
      = nth t (token_counts s) 0 + count_occ Nat.eq_dec (stream ts ps) t;
  counted_seqs : forall q,
      nth q (seq_counts s') 0
      = nth q (seq_counts s) 0 + count_occ piece_eq_dec ps (PSeq q);
  counted_pairs : forall i j, i < ntokens ts -> j < ntokens ts ->
      nth (i * ntokens ts + j) (pair_counts s') 0
      = nth (i * ntokens ts + j) (pair_counts s) 0 + adj i j ps
}.
