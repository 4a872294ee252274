(** * Model of what the program prints about tokens: [Display] of src/tokenset.rs,
    [show_tokenset_diff] of src/optimize.rs and the output of [count_chars] of src/main.rs. *)
From Coq Require Import String.
From Verif Require Import Base Utf8 TokenSetModel JsonModel SamplerModel ProcessingModel CountModel.
Local Open Scope list_scope.
Local Notation length := List.length.

Section Print.
(** Whether [escape_debug] leaves a character as it is: it is printable and does not extend
    the previous grapheme.  The tables of the standard library are not modelled. *)
Variable plain : bstr -> bool.

(** The characters with an escape of their own; [q]: the quote around the text. *)
Definition simple (q b : byte) : option byte :=
  if Byte.eqb b x00 then Some x30
  else if Byte.eqb b x09 then Some x74
  else if Byte.eqb b x0d then Some x72
  else if Byte.eqb b x0a then Some x6e
  else if Byte.eqb b q then Some q
  else if Byte.eqb b x5c then Some x5c
  else None.

Definition hex_digit (n : N) : byte := nth (N.to_nat n) (lit "0123456789abcdef") x30.
(** at least one and at most six digits, no leading zeros *)
Fixpoint hex_fuel (f : nat) (n : N) (acc : bstr) : bstr :=
  match f with
  | O => acc
  | S f' => let acc' := hex_digit (n mod 16) :: acc in if (n <? 16)%N then acc' else hex_fuel f' (n / 16) acc'
  end.
Definition unicode_escape (c : bstr) : bstr := lit "\u{" ++ hex_fuel 6 (code_point c) [] ++ lit "}".

(** [char::escape_debug_ext] of the standard library (called by the formatting in
    src/tokenset.rs:60 and src/main.rs:89) *)
Definition escape (q : byte) (c : bstr) : bstr :=
  let rest := if plain c then c else unicode_escape c in
  match c with
  | [b] => match simple q b with Some e => [x5c; e] | None => rest end
  | _ => rest
  end.

(** [format!("{:?}", s)] of a [str], a [char] and a [u8] slice *)
Definition debug_str (s : bstr) : bstr := [x22] ++ flat_map (escape x22) (chars s) ++ [x22].
Definition debug_char (c : bstr) : bstr := [x27] ++ escape x27 c ++ [x27].
Definition decimal (n : nat) : bstr := lit (show_nat n).
Definition debug_bytes (s : bstr) : bstr :=
  [x5b] ++ match map b2n s with
           | [] => []
           | x :: r => decimal x ++ flat_map (fun y => lit ", " ++ decimal y) r
           end ++ [x5d].

(** src/tokenset.rs:58-63 [show_bytes] *)
Definition show_bytes (s : bstr) : bstr := if utf8_valid s then debug_str s else debug_bytes s.

(** src/tokenset.rs:103-110 [Display] of a token *)
Definition show_token (t : token) : bstr :=
  match t with Ext x => decimal (b2n x) | Str s => show_bytes s end.

(** [join(sep)] *)
Definition join (sep : bstr) (l : list bstr) : bstr :=
  match l with [] => [] | x :: r => x ++ flat_map (fun y => sep ++ y) r end.

(** [Eq] of src/tokenset.rs:41 *)
Definition token_eq_dec (x y : token) : {x = y} + {x <> y}.
Proof. decide equality; [apply (list_eq_dec Byte.byte_eq_dec)|apply Byte.byte_eq_dec]. Defined.
(** the members of the difference of two [HashSet]s, src/optimize.rs:27-45 *)
Definition difference (a b : list token) : list token :=
  filter (fun t => negb (existsb (token_eqb t) b)) (nodup token_eq_dec a).
(** src/optimize.rs:26-49 [show_tokenset_diff].  [order]: the order in which the iteration over
    such a difference finds its members. *)
Definition show_diff (order : list token -> list token) (before after : tokenset) : bstr :=
  let removed := stable_sort (fun a b => cmp_leb (bstr_cmp a b)) (map show_token (order (difference (tokens before) (tokens after)))) in
  let added := stable_sort (fun a b => cmp_leb (bstr_cmp a b)) (map show_token (order (difference (tokens after) (tokens before)))) in
  join [x20] removed ++ lit " -> " ++ join [x20] added.

(** the text of the character with a number, a valid Unicode scalar value *)
Definition byte_of (n : N) : byte := n2b (N.to_nat n).
Definition utf8_of (v : N) : bstr :=
  if (v <? 128)%N then [byte_of v]
  else if (v <? 2048)%N then [byte_of (192 + v / 64); byte_of (128 + v mod 64)]
  else if (v <? 65536)%N then [byte_of (224 + v / 4096); byte_of (128 + v / 64 mod 64); byte_of (128 + v mod 64)]
  else [byte_of (240 + v / 262144); byte_of (128 + v / 4096 mod 64); byte_of (128 + v / 64 mod 64); byte_of (128 + v mod 64)].

(** src/main.rs:85-99: what [count_chars] prints at the end *)
Definition count_output (total : nat) (low : list (nat * nat)) (top : N) : bstr :=
  lit "Total: " ++ decimal total ++ [x0a] ++
  flat_map (fun p => debug_char (utf8_of (N.of_nat (fst p))) ++ [x20] ++ decimal (snd p) ++ [x0a]) low ++
  lit "Max char: " ++ debug_char (utf8_of top) ++ [x0a].
End Print.
