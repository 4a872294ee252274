(** * Model of src/main.rs:54-100 [count_chars]. *)
From Verif Require Import Base Utf8 SamplerModel ProcessingModel.

(** [c as u32]: the code point of a character given by its bytes. *)
Definition cont_bits (b : byte) : N := (N.of_nat (b2n b) - 128)%N.
Definition code_point (c : bstr) : N :=
  match c with
  | [a] => N.of_nat (b2n a)
  | [a; b] => ((N.of_nat (b2n a) - 192) * 64 + cont_bits b)%N
  | [a; b; c] => ((N.of_nat (b2n a) - 224) * 4096 + cont_bits b * 64 + cont_bits c)%N
  | [a; b; c; d] => ((N.of_nat (b2n a) - 240) * 262144 + cont_bits b * 4096 + cont_bits c * 64 + cont_bits d)%N
  | _ => 0%N
  end.

(** [HashMap<u32, i32>]: [*counts.entry(c).or_insert(0) += 1] *)
Fixpoint nincr (m : list (N * nat)) (k : N) : list (N * nat) :=
  match m with
  | [] => [(k, 1)]
  | (k', n) :: r => if N.eqb k k' then (k', S n) :: r else (k', n) :: nincr r k
  end.

(** src/main.rs:76-83: one character *)
Definition count_char (s : list nat * list (N * nat)) (c : bstr) : outcome (list nat * list (N * nat)) :=
  let '(low, high) := s in
  let v := code_point c in
  if (v <? 256)%N then low' <- idx_upd low (N.to_nat v) S ;; Ret (low', high)
  else Ret (low, nincr high v).

(** src/main.rs:62-84: the loop over lines ([BufRead::read_line] keeps the
    newline; invalid text is an error, hence a panic).  The progress message
    is left out. *)
Fixpoint count_loop (fuel : nat) (rest : bstr) (total : nat) (s : list nat * list (N * nat))
  : outcome (nat * (list nat * list (N * nat))) :=
  match fuel with
  | O => OutOfFuel
  | S f =>
      match read_line rest with
      | ([], _) => Ret (total, s)
      | (line, rest') =>
          _ <- assert_that (utf8_valid line) ;;
          s' <- mfold count_char (chars line) s ;;
          count_loop f rest' (total + length (chars line)) s'
      end
  end.

(** src/main.rs:92-97 *)
Definition max_key (m : list (N * nat)) : N :=
  fold_left (fun acc kv => if (acc <? fst kv)%N then fst kv else acc) m 0%N.

(** src/main.rs:54-100: the total, the printed counts below 256, the maximum *)
Definition count_chars (file : bstr) : outcome (nat * list (nat * nat) * N) :=
  '(total, s) <- count_loop (S (length file)) file 0 (repeat 0 256, []) ;;
  Ret (total, filter (fun p => 0 <? snd p) (enum (fst s)), max_key (snd s)).
