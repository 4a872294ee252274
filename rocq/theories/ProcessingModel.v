(** * Model of src/processing.rs.

    A character is the byte string that encodes it; a text is a list of
    characters.  The Unicode tables of the Rust standard library are a
    parameter. *)
From Verif Require Import Base Utf8 SamplerModel.

Notation text := (list bstr).

(** [str::chars]: the characters of a valid string, in order. *)
Fixpoint chars_fuel (fuel : nat) (s : bstr) : text :=
  match s, fuel with
  | [], _ | _, O => []
  | _, S f => let '(_, n) := utf8_step s in firstn n s :: chars_fuel f (skipn n s)
  end.
Definition chars (s : bstr) : text := chars_fuel (length s) s.

(** The tables: [char::is_alphabetic], [is_uppercase], [is_lowercase],
    [char::to_lowercase] (one to three characters), and the properties Cased
    and Case_Ignorable used by [str::to_lowercase]. *)
Record unicode := {
  alphabetic : bstr -> bool;
  uppercase : bstr -> bool;
  lowercase : bstr -> bool;
  lower_char : bstr -> text;
  cased : bstr -> bool;
  case_ignorable : bstr -> bool
}.

Definition space : bstr := [x20].
Definition cap_mark : bstr := [x14].
Definition caps_mark : bstr := [x15].
Definition end_mark : bstr := [x16].
Definition newline : bstr := [x0a].

(** GREEK CAPITAL SIGMA, SMALL SIGMA, SMALL FINAL SIGMA *)
Definition cap_sigma : bstr := [xce; xa3].
Definition small_sigma : bstr := [xcf; x83].
Definition final_sigma : bstr := [xcf; x82].

Section Processing.
Variable U : unicode.

(** [str::to_lowercase]: every character by the table, except that a capital
    sigma is lowered to the final form at the end of a word. *)
Fixpoint ignorable_then_cased (l : text) : bool :=
  match l with
  | [] => false
  | c :: r => if case_ignorable U c then ignorable_then_cased r else cased U c
  end.
Fixpoint lower_from (before : text) (w : text) : text :=
  match w with
  | [] => []
  | c :: r =>
      (if bstr_eqb c cap_sigma then
         [if ignorable_then_cased before && negb (ignorable_then_cased r)
          then final_sigma else small_sigma]
       else lower_char U c) ++ lower_from (c :: before) r
  end.
Definition lower_str (w : text) : text := lower_from [] w.

(** src/processing.rs:26-40 [CharType], [get_char_type] *)
Inductive char_type := Letter | NonLetter | Space.
Definition get_char_type (c : bstr) : char_type :=
  if alphabetic U c then Letter else if bstr_eqb c space then Space else NonLetter.

(** src/processing.rs:42-65 [add_word] *)
Definition add_word (out word : text) : outcome text :=
  _ <- assert_that (match word with [] => false | _ => true end) ;;
  first <- unwrap (hd_error word) ;;
  let rest := tl word in
  out' <- (if uppercase U first then
             if forallb (lowercase U) rest then
               l <- unwrap (hd_error (lower_char U first)) ;;
               Ret (out ++ [cap_mark] ++ [l] ++ rest)
             else if forallb (uppercase U) rest then
               Ret (out ++ [caps_mark] ++ lower_str word)
             else Ret (out ++ word)
           else Ret (out ++ word)) ;;
  Ret (out' ++ [end_mark]).

(** src/processing.rs:67-71 [State] *)
Inductive pstate := Word | SpaceAfterWord | NonWord.

(** src/processing.rs:84-116: one character; state: output, word, state *)
Definition process_step (s : text * text * pstate) (c : bstr) : outcome (text * text * pstate) :=
  let '(out, word, st) := s in
  match st, get_char_type c with
  | NonWord, Letter => Ret (out, word ++ [c], Word)
  | NonWord, (Space | NonLetter) => Ret (out ++ [c], word, NonWord)
  | Word, Letter => Ret (out, word ++ [c], Word)
  | Word, Space => out' <- add_word out word ;; Ret (out', [], SpaceAfterWord)
  | Word, NonLetter => out' <- add_word out word ;; Ret (out' ++ [c], [], NonWord)
  | SpaceAfterWord, Letter => Ret (out, word ++ [c], Word)
  | SpaceAfterWord, (Space | NonLetter) => Ret (out ++ [space] ++ [c], word, NonWord)
  end.

(** src/processing.rs:118-124 *)
Definition process_end (s : text * text * pstate) : outcome text :=
  let '(out, word, st) := s in
  match st with
  | Word => add_word out word
  | SpaceAfterWord => Ret (out ++ [space])
  | NonWord => Ret out
  end.

(** src/processing.rs:79-125 [process], on the characters of the text *)
Definition process (t : text) : outcome text :=
  s <- mfold process_step t ([], [], NonWord) ;; process_end s.

(** ... and on strings *)
Definition process_str (s : bstr) : outcome bstr :=
  out <- process (chars s) ;; Ret (concat out).

(** ** The output side: [std::io::BufWriter] over a writer that may fail *)
(** What one call of the underlying [write] does: accept some bytes (at least
    one, at most all) or fail.  Interrupted calls are retried by the callers
    and pending out. *)
Inductive response := Accept (k : nat) | Refuse.

(** Writing all of [data] ([write_all], [BufWriter::flush_buf]): repeated
    [write] calls answered by [script] (after its end everything is accepted).
    Returns success, the bytes not written, the sink, the rest of the script. *)
Fixpoint drain (script : list response) (data sink : bstr) : bool * bstr * bstr * list response :=
  match data with
  | [] => (true, [], sink, script)
  | _ =>
      match script with
      | [] => (true, [], sink ++ data, [])
      | Refuse :: s => (false, data, sink, s)
      | Accept k :: s => drain s (skipn (S k) data) (sink ++ firstn (S k) data)
      end
  end.

Record bufw := { bw_buf : bstr; bw_sink : bstr; bw_script : list response }.

(** [BufWriter::write_all] (and [write] of one byte) with buffer capacity
    [cap]; returns whether it succeeded. *)
Definition bw_write (cap : nat) (w : bufw) (data : bstr) : bool * bufw :=
  let spare := cap - length (bw_buf w) in
  if length data <? spare then
    (true, {| bw_buf := bw_buf w ++ data; bw_sink := bw_sink w; bw_script := bw_script w |})
  else
    let '(ok, pending, sink, script) :=
      if spare <? length data then drain (bw_script w) (bw_buf w) (bw_sink w)
      else (true, bw_buf w, bw_sink w, bw_script w) in
    if negb ok then (false, {| bw_buf := pending; bw_sink := sink; bw_script := script |})
    else if cap <=? length data then
      let '(ok2, _, sink2, script2) := drain script data sink in
      (ok2, {| bw_buf := pending; bw_sink := sink2; bw_script := script2 |})
    else (true, {| bw_buf := pending ++ data; bw_sink := sink; bw_script := script |}).

(** Dropping the writer flushes the buffer and ignores errors; the bytes that
    reached the sink. *)
Definition bw_drop (w : bufw) : bstr :=
  let '(_, _, sink, _) := drain (bw_script w) (bw_buf w) (bw_sink w) in sink.

(** [BufRead::lines]: the line without its newline or carriage return and newline *)
Definition strip_line (l : bstr) : bstr :=
  match rev l with
  | a :: r => if Byte.eqb a x0a then
                match r with
                | b :: r' => if Byte.eqb b x0d then rev r' else rev r
                | [] => []
                end
              else l
  | [] => l
  end.

(** src/processing.rs:131-136: returns whether the result is [Ok(())] *)
Fixpoint process_lines (fuel cap : nat) (rest : bstr) (w : bufw) : outcome (bool * bufw) :=
  match fuel with
  | O => OutOfFuel
  | S f =>
      match read_line rest with
      | ([], _) => Ret (true, w)
      | (line, rest') =>
          if negb (utf8_valid line) then Ret (false, w) else
          processed <- process_str (strip_line line) ;;
          let '(ok, w1) := bw_write cap w processed in
          if negb ok then Ret (false, w1) else
          let '(ok2, w2) := bw_write cap w1 [x0a] in
          if negb ok2 then Ret (false, w2) else
          process_lines f cap rest' w2
      end
  end.

(** [BufWriter::new]: 8 KiB.  Kept abstract in the theorems: any capacity above 1. *)
Definition default_capacity : nat := 8 * 1024.

(** src/processing.rs:127-139 [process_file]: whether it returned [Ok], and
    the bytes that reached the output.  Input errors other than invalid text
    are not modelled. *)
Definition process_file (cap : nat) (script : list response) (file : bstr) : outcome (bool * bstr) :=
  '(ok, w) <- process_lines (S (length file)) cap file
                {| bw_buf := []; bw_sink := []; bw_script := script |} ;;
  Ret (ok, bw_drop w).
End Processing.
