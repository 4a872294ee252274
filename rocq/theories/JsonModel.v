(** * Saving and loading token sets: JSON values, their text, and
    [to_json] / [from_json] of src/tokenset.rs. *)
From Coq Require Import String Ascii.
From Verif Require Import Base TokenSetModel TokenizerModel Utf8.
Local Open Scope list_scope.
Local Notation length := List.length.

(** [serde_json::Value].  [JNum]: an unsigned integer (below 2^64).  [JReal]: any
    other number, kept as its text.  Strings are byte strings (valid UTF-8 in
    Rust), objects are association lists. *)
Inductive json :=
| JNull
| JBool (b : bool)
| JNum (n : nat)
| JReal (text : bstr)
| JStr (s : bstr)
| JArr (l : list json)
| JObj (fields : list (bstr * json)).

(** ASCII literal as bytes *)
Definition lit (s : string) : bstr := List.map byte_of_ascii (list_ascii_of_string s).

(** [value[key]]: [Null] for a missing key or a non-object *)
Fixpoint assoc (k : bstr) (fields : list (bstr * json)) : option json :=
  match fields with
  | [] => None
  | (k', v) :: r => if bstr_eqb k k' then Some v else assoc k r
  end.
Definition jget (v : json) (k : bstr) : option json :=
  match v with JObj fs => assoc k fs | _ => None end.
Definition jindex (v : json) (k : bstr) : json :=
  match jget v k with Some x => x | None => JNull end.
Definition as_array (v : json) : outcome (list json) :=
  match v with JArr l => Ret l | _ => Panic end.
Definition is_number (v : json) : bool := match v with JNum _ | JReal _ => true | _ => false end.

(** Decimal digits *)
Definition is_digit (b : byte) : bool := (48 <=? b2n b) && (b2n b <=? 57).
Definition digits_value (ds : bstr) : N :=
  fold_left (fun n b => (10 * n + N.of_nat (b2n b - 48))%N) ds 0%N.

(** [Value::as_i64(..).unwrap() as u8]: integers from -2^63 to 2^63 - 1, modulo
    256 *)
Definition as_i64_u8 (v : json) : outcome byte :=
  match v with
  | JNum n => if (N.of_nat n <? 2 ^ 63)%N then Ret (n2b n) else Panic
  | JReal (m :: ds) =>
      if Byte.eqb m x2d && negb (bstr_eqb ds []) && forallb is_digit ds
         && (0 <? digits_value ds)%N && (digits_value ds <=? 2 ^ 63)%N
      then Ret (n2b (N.to_nat ((256 - digits_value ds mod 256) mod 256)))
      else Panic
  | _ => Panic
  end.

(** src/tokenset.rs:51-56 [bytes_to_json] *)
Definition bytes_to_json (s : bstr) : json :=
  if utf8_valid s then JStr s else JArr (map (fun b => JNum (b2n b)) s).

(** src/tokenset.rs:77-84 [Token::to_json] *)
Definition token_to_json (t : token) : json :=
  match t with
  | Ext n => JNum (b2n n)
  | Str s => bytes_to_json s
  end.

(** src/tokenset.rs:121-133 [Sequence::to_json] *)
Definition sequence_to_json (ts : tokenset) (q : sequence) : outcome json :=
  toks <- mmap (fun i => t <- idx (tokens ts) i ;; Ret (token_to_json t)) (seq_tokens q) ;;
  Ret (JObj [(lit "string", bytes_to_json (seq_string q)); (lit "tokens", JArr toks)]).

(** src/tokenset.rs:395-412 [TokenSet::to_json].  Keys in the order in which
    serde_json's sorted map writes them. *)
Definition ts_to_json (ts : tokenset) : outcome json :=
  seqs <- mmap (sequence_to_json ts)
               (filter (fun q => 1 <? length (seq_tokens q)) (sequences ts)) ;;
  Ret (JObj ([(lit "processing", JStr (lit (processing_name (ts_processing ts))))]
             ++ (match seqs with [] => [] | _ => [(lit "sequences", JArr seqs)] end)
             ++ [(lit "split_paragraphs", JBool (split_paragraphs ts));
                 (lit "tokens", JArr (map token_to_json (tokens ts)));
                 (lit "type", JStr (lit (type_name (ts_type ts))))])).

(** [value[key] = v] for an object: serde_json's map is a [BTreeMap], sorted by
    key *)
Fixpoint obj_set (k : bstr) (v : json) (fields : list (bstr * json)) : list (bstr * json) :=
  match fields with
  | [] => [(k, v)]
  | (k', v') :: r =>
      match bstr_cmp k k' with
      | Lt => (k, v) :: fields
      | Eq => (k, v) :: r
      | Gt => (k', v') :: obj_set k v r
      end
  end.

(** src/stats2.rs:55-64: the statistics object.  [ratio a b] is the text of the
    floating point number [a / b] ([b > 0]); for [b = 0] it is not finite and
    becomes [null]. *)
Definition stats_object (ratio : nat -> nat -> bstr) (s : stats) : json :=
  let fields := [(lit "ntokens", JNum (ntokens (st_token_set s)));
                 (lit "scanned_bytes", JNum (scanned_bytes s));
                 (lit "total_tokens", JNum (total_tokens s))] in
  JObj (match initial_size s with
        | None => fields
        | Some n => (lit "bytes_per_token", if total_tokens s =? 0 then JNull else JReal (ratio n (total_tokens s)))
                    :: (lit "initial_size", JNum n) :: fields
        end).

(** src/stats2.rs:53-69 [TokenStats::to_json] for the token set [ts] and the
    statistics object [v] *)
Definition stats_to_json (ts : tokenset) (v : json) : outcome json :=
  j <- ts_to_json ts ;;
  match j with
  | JObj fs => Ret (JObj (obj_set (lit "stats") v fs))
  | _ => Panic
  end.

(** src/tokenset.rs:65-75 [parse_token] *)
Definition parse_token (v : json) : outcome token :=
  match v with
  | JArr l => bs <- mmap as_i64_u8 l ;; Ret (Str bs)
  | JStr s => Ret (Str s)
  | JNum n => Ret (Ext (n2b n))
  | _ => Panic
  end.

(** src/tokenset.rs:242-246 *)
Definition parse_processing (v : json) : outcome processing :=
  match v with
  | JStr s => if bstr_eqb s (lit "raw") then Ret Raw
              else if bstr_eqb s (lit "capswords") then Ret CapsWords else Panic
  | _ => Panic
  end.

(** src/tokenset.rs:247-262 *)
Definition parse_type (v : json) : outcome token_type :=
  match jindex v (lit "type") with
  | JStr s =>
      if bstr_eqb s (lit "fallback_bits") then
        match jindex v (lit "fallback_bits") with
        | JNum 1 => Ret Bits1 | JNum 2 => Ret Bits2 | JNum 4 => Ret Bits4 | _ => Panic
        end
      else if bstr_eqb s (lit "all_tokens") then Ret Bytes
      else if bstr_eqb s (lit "bits1") then Ret Bits1
      else if bstr_eqb s (lit "bits2") then Ret Bits2
      else if bstr_eqb s (lit "bits4") then Ret Bits4
      else if bstr_eqb s (lit "bytes") then Ret Bytes
      else if bstr_eqb s (lit "byteshuff") then Ret BytesHuff
      else Panic
  | _ => Panic
  end.

(** src/tokenset.rs:263-267; the key read is "split_paragraph" *)
Definition parse_split (v : json) : outcome bool :=
  match jget v (lit "split_paragraph") with
  | None => Ret false
  | Some (JBool b) => Ret b
  | _ => Panic
  end.

(** src/tokenset.rs:269-287: the empty set of the given type *)
Definition empty_of_type (t : token_type) (n : nat) (p : processing) (sp : bool)
  : outcome tokenset :=
  match t with
  | Bits1 => _ <- assert_that (n =? 2) ;; Ret (new_bits1 p sp)
  | Bits2 => _ <- assert_that (n =? 4) ;; Ret (new_bits2 p sp)
  | Bits4 => _ <- assert_that (n =? 16) ;; Ret (new_bits4 p sp)
  | Bytes => _ <- assert_that (n =? 0) ;; ts_new 0 p Bytes sp
  | BytesHuff => ts_new n p BytesHuff sp
  end.

(** src/tokenset.rs:288-292: add the string tokens in order *)
Definition load_tokens (ts : tokenset) (l : list json) : outcome tokenset :=
  mfold (fun ts v => t <- parse_token v ;;
                     match t with
                     | Str s => '(ts', _) <- add_token ts s ;; Ret ts'
                     | Ext _ => Ret ts
                     end) l ts.

(** src/tokenset.rs:296-305: one sequence *)
Definition load_sequence (ts : tokenset) (v : json) : outcome tokenset :=
  st <- parse_token (jindex v (lit "string")) ;;
  match st with
  | Ext _ => Panic
  | Str s =>
      l <- as_array (jindex v (lit "tokens")) ;;
      toks <- mmap (fun x => t <- parse_token x ;;
                             unwrap (position (token_eqb t) (tokens ts))) l ;;
      Ret (add_sequence ts s toks)
  end.

(** src/tokenset.rs:235-308 [from_json] *)
Definition ts_from_json (v : json) : outcome tokenset :=
  toks <- as_array (jindex v (lit "tokens")) ;;
  let n := length (filter is_number toks) in
  p <- parse_processing (jindex v (lit "processing")) ;;
  t <- parse_type v ;;
  sp <- parse_split v ;;
  ts0 <- empty_of_type t n p sp ;;
  ts1 <- load_tokens ts0 toks ;;
  match v with
  | JObj fs =>
      match assoc (lit "sequences") fs with
      | Some l => seqs <- as_array l ;; mfold load_sequence seqs ts1
      | None => Ret ts1
      end
  | _ => Panic
  end.

(** ** Text of a value: [serde_json::to_string] (compact) *)
Definition hex_digit (n : nat) : byte := n2b (if n <? 10 then 48 + n else 87 + n).

(** serde_json's escaping of one byte *)
Definition escape (b : byte) : bstr :=
  match b2n b with
  | 34 => lit "\""" | 92 => lit "\\"
  | 8 => lit "\b" | 9 => lit "\t" | 10 => lit "\n" | 12 => lit "\f" | 13 => lit "\r"
  | n => if n <? 32 then lit "\u00" ++ [hex_digit (n / 16); hex_digit (n mod 16)] else [b]
  end.

Definition quote : byte := x22.
Definition show_str (s : bstr) : bstr := [quote] ++ flat_map escape s ++ [quote].

Fixpoint show (v : json) : bstr :=
  match v with
  | JNull => lit "null"
  | JBool true => lit "true"
  | JBool false => lit "false"
  | JNum n => lit (show_nat n)
  | JReal t => t
  | JStr s => show_str s
  | JArr l =>
      lit "[" ++
      (fix go (first : bool) (l : list json) : bstr :=
         match l with
         | [] => []
         | x :: r => (if first then [] else lit ",") ++ show x ++ go false r
         end) true l
      ++ lit "]"
  | JObj fs =>
      lit "{" ++
      (fix go (first : bool) (l : list (bstr * json)) : bstr :=
         match l with
         | [] => []
         | (k, x) :: r => (if first then [] else lit ",") ++ show_str k ++ lit ":" ++ show x ++ go false r
         end) true fs
      ++ lit "}"
  end.

(** src/batch_tokenize.rs:150-153 [get_key] *)
Definition get_key (ts : tokenset) : outcome bstr :=
  v <- ts_to_json ts ;; Ret (show v).
