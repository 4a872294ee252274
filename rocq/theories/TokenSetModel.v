(** * Model of src/tokenset.rs (token sets) and of the [Processing] enum. *)
From Coq Require Import String DecimalString.
From Verif Require Import Base.
Local Open Scope list_scope.

(** src/processing.rs:6-11 [enum Processing] *)
Inductive processing := Raw | CapsWords.

(** src/tokenset.rs:9-23 [enum TokenType] *)
Inductive token_type := Bits1 | Bits2 | Bits4 | Bytes | BytesHuff.

(** src/tokenset.rs:41-49 [enum Token] *)
Inductive token :=
| Str (s : bstr)
| Ext (n : byte).

Definition token_eqb (a b : token) : bool :=
  match a, b with
  | Str x, Str y => bstr_eqb x y
  | Ext x, Ext y => Byte.eqb x y
  | _, _ => false
  end.

(** src/tokenset.rs:86-95 [impl Ord for Token] *)
Definition token_cmp (a b : token) : comparison :=
  match a, b with
  | Ext x, Ext y => Nat.compare (b2n x) (b2n y)
  | Ext _, Str _ => Lt
  | Str _, Ext _ => Gt
  | Str x, Str y => bstr_cmp x y
  end.

(** src/tokenset.rs:112-119 [struct Sequence] *)
Record sequence := mkSeq { seq_string : bstr; seq_tokens : list nat }.

(** src/tokenset.rs:135-139 [impl Ord for Sequence]: by string only *)
Definition sequence_cmp (a b : sequence) : comparison :=
  bstr_cmp (seq_string a) (seq_string b).

(** src/tokenset.rs:147-161 [struct TokenSet] *)
Record tokenset := mkTS {
  n_ext_tokens : nat;
  ts_type : token_type;
  ts_processing : processing;
  split_paragraphs : bool;
  tokens : list token;
  sequences : list sequence
}.

(** src/tokenset.rs:164-183 [TokenSet::new], the part after the assert *)
Definition ts_new_unchecked (n : nat) (p : processing) (t : token_type) (sp : bool)
  : tokenset :=
  mkTS n t p sp (map (fun i => Ext (n2b i)) (seq 0 n)) [].

(** src/tokenset.rs:164-183 [TokenSet::new] with [assert!(n_ext_tokens < 256)] *)
Definition ts_new (n : nat) (p : processing) (t : token_type) (sp : bool)
  : outcome tokenset :=
  _ <- assert_that (n <? 256) ;;
  Ret (ts_new_unchecked n p t sp).

(** src/tokenset.rs:331-334 [add_sequence] *)
Definition add_sequence (ts : tokenset) (s : bstr) (toks : list nat) : tokenset :=
  mkTS (n_ext_tokens ts) (ts_type ts) (ts_processing ts) (split_paragraphs ts)
       (tokens ts) (sequences ts ++ [mkSeq s toks]).

(** src/tokenset.rs:336-343 [add_token] after the assert: returns the new set;
    the returned index is [length (tokens ts)] of the old set. *)
Definition add_token_unchecked (ts : tokenset) (s : bstr) : tokenset :=
  mkTS (n_ext_tokens ts) (ts_type ts) (ts_processing ts) (split_paragraphs ts)
       (tokens ts ++ [Str s])
       (filter (fun q => negb (bstr_eqb (seq_string q) s)) (sequences ts)).

(** src/tokenset.rs:336-343 [add_token] with [assert!(!token.is_empty())] *)
Definition add_token (ts : tokenset) (s : bstr) : outcome (tokenset * nat) :=
  _ <- assert_that (negb (bstr_eqb s [])) ;;
  Ret (add_token_unchecked ts s, List.length (tokens ts)).

(** src/tokenset.rs:187-194, 203-210: the digit loop
    [for _ in 0..k { digits.push(rem & mask); rem >>= shift }] then reverse. *)
Fixpoint digit_loop (k : nat) (mask shift rem : nat) : list nat :=
  match k with
  | O => []
  | S k' => Nat.land rem mask :: digit_loop k' mask shift (Nat.shiftr rem shift)
  end.

(** src/tokenset.rs:185-199 [new_bits1].  The inner [Self::new(2, ..)] passes
    its assert since 2 < 256; same for the two functions below. *)
Definition new_bits1 (p : processing) (sp : bool) : tokenset :=
  fold_left (fun ts c => add_sequence ts [n2b c] (rev (digit_loop 8 1 1 c)))
            (seq 0 256) (ts_new_unchecked 2 p Bits1 sp).

(** src/tokenset.rs:201-215 [new_bits2] *)
Definition new_bits2 (p : processing) (sp : bool) : tokenset :=
  fold_left (fun ts c => add_sequence ts [n2b c] (rev (digit_loop 4 3 2 c)))
            (seq 0 256) (ts_new_unchecked 4 p Bits2 sp).

(** src/tokenset.rs:217-224 [new_bits4] *)
Definition new_bits4 (p : processing) (sp : bool) : tokenset :=
  fold_left (fun ts c => add_sequence ts [n2b c] [Nat.shiftr c 4; Nat.land c 15])
            (seq 0 256) (ts_new_unchecked 16 p Bits4 sp).

(** src/tokenset.rs:226-233 [new_bytes].  [add_token]'s assert holds for
    one-byte strings, so the unchecked form is used. *)
Definition new_bytes (p : processing) : tokenset :=
  fold_left (fun ts c => add_token_unchecked ts [n2b c])
            (seq 0 256) (ts_new_unchecked 0 p Bytes true).

(** src/tokenset.rs:13-24 of processing.rs / 25-39: [Display] impls *)
Definition processing_name (p : processing) : string :=
  match p with Raw => "raw" | CapsWords => "capswords" end.
Definition type_name (t : token_type) : string :=
  match t with
  | Bits1 => "bits1" | Bits2 => "bits2" | Bits4 => "bits4"
  | Bytes => "bytes" | BytesHuff => "byteshuff"
  end.

(** decimal rendering of a usize ([format!("{}", n)]) *)
Definition show_nat (n : nat) : string := NilZero.string_of_uint (Nat.to_uint n).

(** src/tokenset.rs:378-380 [ntokens] *)
Definition ntokens (ts : tokenset) : nat := List.length (tokens ts).

(** src/tokenset.rs:310-317 [name] *)
Definition ts_name (ts : tokenset) : string :=
  ("tokens" ++ show_nat (ntokens ts) ++ "_" ++ processing_name (ts_processing ts)
            ++ "_" ++ type_name (ts_type ts))%string.

(** src/tokenset.rs:321-329 [min_bytes_ext_tokens] *)
Definition min_bytes_ext_tokens (ts : tokenset) : nat :=
  match ts_type ts with
  | Bits1 => 2 | Bits2 => 4 | Bits4 => 16 | Bytes => 256 | BytesHuff => 3
  end.

(** src/tokenset.rs:345-366 [remove_token] *)
Definition remove_token (ts : tokenset) (i : nat) : outcome tokenset :=
  _ <- assert_that (forallb (fun q => negb (existsb (Nat.eqb i) (seq_tokens q)))
                            (sequences ts)) ;;
  last_idx <- checked_sub (List.length (tokens ts)) 1 ;;
  if i =? last_idx then
    Ret (mkTS (n_ext_tokens ts) (ts_type ts) (ts_processing ts)
              (split_paragraphs ts) (removelast (tokens ts)) (sequences ts))
  else
    last_token <- idx (tokens ts) last_idx ;;
    toks <- idx_upd (removelast (tokens ts)) i (fun _ => last_token) ;;
    Ret (mkTS (n_ext_tokens ts) (ts_type ts) (ts_processing ts)
              (split_paragraphs ts) toks
              (map (fun q => mkSeq (seq_string q)
                       (map (fun t => if t =? last_idx then i else t)
                            (seq_tokens q)))
                   (sequences ts))).

(** src/tokenset.rs:368-376 [find_token] *)
Definition find_token (ts : tokenset) (s : bstr) : option nat :=
  position (fun t => match t with Str x => bstr_eqb x s | Ext _ => false end)
           (tokens ts).

Definition is_long (t : token) : bool :=
  match t with Str s => 1 <? List.length s | Ext _ => false end.

(** src/tokenset.rs:382-393 [n_long_tokens] *)
Definition n_long_tokens (ts : tokenset) : nat :=
  List.length (filter is_long (tokens ts)).

(** src/tokenset.rs:414-432 [sort].  [new_indices[current_pos] = new_pos] is a
    loop over the sorted index list; all indices are in range because
    [token_idxs] is a permutation of [0..len], the only indexing that can panic
    is [new_indices[seq.tokens[i]]]. *)
Definition sorted_idxs (ts : tokenset) : list nat :=
  stable_sort
    (fun a b => match nth_error (tokens ts) a, nth_error (tokens ts) b with
                | Some x, Some y => cmp_leb (token_cmp x y)
                | _, _ => true
                end)
    (seq 0 (List.length (tokens ts))).

Definition new_indices (ts : tokenset) : list nat :=
  fold_left (fun v p => upd (snd p) (fun _ => fst p) v)
            (enum (sorted_idxs ts))
            (repeat 0 (List.length (tokens ts))).

Definition ts_sort (ts : tokenset) : outcome tokenset :=
  seqs <- mmap (fun q => toks <- mmap (idx (new_indices ts)) (seq_tokens q) ;;
                         Ret (mkSeq (seq_string q) toks))
               (sequences ts) ;;
  Ret (mkTS (n_ext_tokens ts) (ts_type ts) (ts_processing ts)
            (split_paragraphs ts)
            (stable_sort (fun a b => cmp_leb (token_cmp a b)) (tokens ts))
            (stable_sort (fun a b => cmp_leb (sequence_cmp a b)) seqs)).
