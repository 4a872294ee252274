(** * The file that src/chars writes: [to_json] of src/chars/tokens.rs and
    src/chars/token_stats.rs, and the text of [serde_json::to_string_pretty]. *)
From Coq Require Import String.
From Verif Require Import Base JsonModel CharsModel.
Local Open Scope list_scope.
Local Notation length := List.length.

(** src/chars/tokens.rs:28-34 [CharsToken::to_json]; an extension is a [u8] *)
Definition ctoken_to_json (t : ctoken) : json :=
  match t with CExt n => JNum n | CChar c => JStr c | CStr s => JStr s end.

(** src/chars/tokens.rs:160-173 [tokens_to_json] *)
Definition tokens_to_json (ts : cset) : list json := map ctoken_to_json (c_tokens ts).

(** src/chars/tokens.rs:175-207 [encodings_to_json].  The code goes through the
    characters below 256 and then the others in increasing order; the object is
    a sorted map, so the order of the assignments does not matter.  Characters
    below 256 that were given no code have an empty one there and are skipped. *)
Definition encodings_to_json (ts : cset) : outcome json :=
  fields <- mfold (fun out c =>
              match sget (c_enc ts) c with
              | None => Ret out
              | Some enc =>
                  if length enc <=? 1 then Ret out
                  else l <- mmap (fun i => t <- idx (c_tokens ts) i ;; Ret (ctoken_to_json t)) enc ;;
                       Ret (obj_set c (JArr l) out)
              end) (map fst (c_enc ts)) [] ;;
  Ret (JObj fields).

(** src/chars/token_stats.rs:62-79 [CharsTokenStats::to_json], keys in the order
    of the sorted map.  [init]: the field [initial_size]; [ratio a b]: the text of
    [a / b], which for [b = 0] is not finite and becomes [null]. *)
Definition cstats_to_json (ratio : nat -> nat -> bstr) (init : option nat) (s : cstats) : outcome json :=
  encs <- encodings_to_json (cst_set s) ;;
  let numbers := [(lit "ntokens", JNum (length (c_tokens (cst_set s)))); (lit "total_tokens", JNum (cst_total s))] in
  Ret (JObj [(lit "encodings", encs);
             (lit "stats", JObj (match init with
                                 | None => numbers
                                 | Some n => (lit "bytes_per_token", if cst_total s =? 0 then JNull else JReal (ratio n (cst_total s)))
                                             :: (lit "initial_size", JNum n) :: numbers
                                 end));
             (lit "tokens", JArr (tokens_to_json (cst_set s)));
             (lit "type", JStr (lit "chars"))]).

(** [serde_json::to_string_pretty]: every item and field on its own line,
    indented by two more spaces; [ind]: the indentation so far *)
Fixpoint pretty_text (ind : bstr) (v : json) : bstr :=
  let inner := ind ++ lit "  " in
  match v with
  | JArr ((_ :: _) as l) =>
      lit "[" ++
      (fix go (first : bool) (l : list json) : bstr :=
         match l with
         | [] => []
         | x :: r => (if first then [] else lit ",") ++ [x0a] ++ inner ++ pretty_text inner x ++ go false r
         end) true l
      ++ [x0a] ++ ind ++ lit "]"
  | JObj ((_ :: _) as fs) =>
      lit "{" ++
      (fix go (first : bool) (l : list (bstr * json)) : bstr :=
         match l with
         | [] => []
         | (k, x) :: r => (if first then [] else lit ",") ++ [x0a] ++ inner ++ show_str k ++ lit ": " ++ pretty_text inner x ++ go false r
         end) true fs
      ++ [x0a] ++ ind ++ lit "}"
  | v => show v
  end.

(** src/chars/optimizer.rs:294-299: the content of the file that is written at the
    end, for the data size [initial_size] given to [optimize_chars_tokens] *)
Definition chars_file (ratio : nat -> nat -> bstr) (initial_size : nat) (s : cstats) : outcome bstr :=
  v <- cstats_to_json ratio (Some initial_size) s ;; Ret (pretty_text [] v).
