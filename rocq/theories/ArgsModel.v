(** * Model of the command line in src/main.rs:250-348.

    The options are those of the source; the rules by which the library clap
    (version 4, derive) reads them are taken from its documentation.  Arguments are
    valid text. *)
From Coq Require Import String Ascii Permutation.
From Verif Require Import Base TokenSetModel SamplerModel ProcessingModel BatchModel CacheModel OptimizeModel MainModel CommandsModel.
Local Open Scope list_scope.
Local Notation length := List.length.
Local Open Scope char_scope.

(** src/main.rs:256-308 [Command], with the values of the options *)
Inductive command :=
| Process (data output : string)
| CountChars (data : string)
| ConvertTokens (data : string) (processed_data : option string) (input_tokens tokens_dir : string)
| Optimize (data : string) (processed_data : option string) (tokens_dir : string) (p : processing) (t : token_type)
    (ntokens : N) (input_tokens : option string) (min_data_size : option N).

(** The options of the commands: long name, and letter if [short] is given. *)
Definition option_names := list (string * option ascii).
(** src/main.rs:258-264 *)
Definition process_options : option_names := [("data"%string, Some "d"); ("output"%string, Some "o")].
(** src/main.rs:266-269 *)
Definition count_options : option_names := [("data"%string, Some "d")].
(** src/main.rs:271-283 *)
Definition convert_options : option_names :=
  [("data"%string, Some "d"); ("processed-data"%string, None); ("input-tokens"%string, Some "i"); ("tokens-dir"%string, Some "t")].
(** src/main.rs:285-307 *)
Definition optimize_options : option_names :=
  [("data"%string, Some "d"); ("processed-data"%string, None); ("tokens-dir"%string, Some "t"); ("processing"%string, Some "p");
   ("type"%string, None); ("ntokens"%string, Some "n"); ("input-tokens"%string, Some "i"); ("min-data-size"%string, None)].

(** ** clap *)
(** An argument that is not taken as a value. *)
Definition option_like (a : string) : bool :=
  match a with String "-" (String _ _) => true | _ => false end.

Fixpoint split_eq (s : string) : string * option string :=
  match s with
  | EmptyString => (EmptyString, None)
  | String c r => if Ascii.eqb c "=" then (EmptyString, Some r) else let '(n, v) := split_eq r in (String c n, v)
  end.

Definition find_long (opts : option_names) (name : string) : option string :=
  option_map fst (find (fun o => String.eqb (fst o) name) opts).
Definition find_short (opts : option_names) (c : ascii) : option string :=
  option_map fst (find (fun o => match snd o with Some c' => Ascii.eqb c' c | None => false end) opts).

(** One argument: the end of the options, an option with its value attached, an
    option whose value is the next argument, or something else. *)
Inductive argument := Escape | Attached (name value : string) | Expecting (name : string) | Unexpected.
Definition classify (opts : option_names) (a : string) : argument :=
  match a with
  | String "-" (String "-" EmptyString) => Escape
  | String "-" (String "-" body) =>
      let '(name, value) := split_eq body in
      match find_long opts name, value with
      | Some n, Some v => Attached n v
      | Some n, None => Expecting n
      | None, _ => Unexpected
      end
  | String "-" (String c rest) =>
      match find_short opts c, rest with
      | Some n, EmptyString => Expecting n
      | Some n, String "=" v => Attached n v
      | Some n, v => Attached n v
      | None, _ => Unexpected
      end
  | _ => Unexpected
  end.

(** All arguments of a subcommand.  [None]: an error, or the help text; the program
    prints it and exits. *)
Fixpoint gather (opts : option_names) (args : list string) : option (list (string * string)) :=
  match args with
  | [] => Some []
  | a :: r =>
      match classify opts a with
      | Escape => match r with [] => Some [] | _ => None end
      | Attached n v => option_map (cons (n, v)) (gather opts r)
      | Expecting n =>
          match r with
          | v :: r' => if option_like v then None else option_map (cons (n, v)) (gather opts r')
          | [] => None
          end
      | Unexpected => None
      end
  end.

Fixpoint repeats (l : list string) : bool :=
  match l with
  | [] => false
  | x :: r => existsb (String.eqb x) r || repeats r
  end.

(** src/processing.rs:6-11, src/tokenset.rs:9-23: [ValueEnum] names *)
Definition processing_arg (s : string) : option processing :=
  if String.eqb s "raw" then Some Raw else if String.eqb s "caps-words" then Some CapsWords else None.
Definition type_arg (s : string) : option token_type :=
  if String.eqb s "bits1" then Some Bits1 else if String.eqb s "bits2" then Some Bits2
  else if String.eqb s "bits4" then Some Bits4 else if String.eqb s "bytes" then Some Bytes
  else if String.eqb s "bytes-huff" then Some BytesHuff else None.

(** [usize::from_str] *)
Definition digit_of (c : ascii) : option N :=
  let n := N_of_ascii c in if (48 <=? n)%N && (n <=? 57)%N then Some (n - 48)%N else None.
Fixpoint digits_from (acc : N) (s : string) : option N :=
  match s with
  | EmptyString => Some acc
  | String c r => match digit_of c with Some d => digits_from (acc * 10 + d)%N r | None => None end
  end.
Definition usize_arg (s : string) : option N :=
  let body := match s with String "+" r => r | _ => s end in
  match body with
  | EmptyString => None
  | _ => match digits_from 0 body with
         | Some n => if (n <? 18446744073709551616)%N then Some n else None
         | None => None
         end
  end.

Definition value_of (l : list (string * string)) (name : string) : option string :=
  option_map snd (find (fun p => String.eqb (fst p) name) l).

Definition need {A B} (o : option A) (f : A -> option B) : option B :=
  match o with Some x => f x | None => None end.
(** an option that may be left out *)
Definition maybe {A B} (o : option string) (read : string -> option A) (f : option A -> option B) : option B :=
  match o with
  | None => f None
  | Some s => match read s with Some x => f (Some x) | None => None end
  end.

(** src/main.rs:250-312: [Args::parse], for the arguments after the program name *)
Definition with_options (opts : option_names) (args : list string) (f : (string -> option string) -> option command) : option command :=
  need (gather opts args) (fun l => if repeats (map fst l) then None else f (value_of l)).
Definition parse_args (args : list string) : option command :=
  match args with
  | sub :: r =>
      if String.eqb sub "process" then
        with_options process_options r (fun get =>
          need (get "data"%string) (fun data => need (get "output"%string) (fun output => Some (Process data output))))
      else if String.eqb sub "count-chars" then
        with_options count_options r (fun get => need (get "data"%string) (fun data => Some (CountChars data)))
      else if String.eqb sub "convert-tokens" then
        with_options convert_options r (fun get =>
          need (get "data"%string) (fun data =>
          need (get "input-tokens"%string) (fun input =>
          need (get "tokens-dir"%string) (fun tdir =>
          Some (ConvertTokens data (get "processed-data"%string) input tdir)))))
      else if String.eqb sub "optimize" then
        with_options optimize_options r (fun get =>
          need (get "data"%string) (fun data =>
          need (get "tokens-dir"%string) (fun tdir =>
          need (need (get "processing"%string) processing_arg) (fun p =>
          need (need (get "type"%string) type_arg) (fun t =>
          need (need (get "ntokens"%string) usize_arg) (fun n =>
          maybe (get "min-data-size"%string) usize_arg (fun min =>
          Some (Optimize data (get "processed-data"%string) tdir p t n (get "input-tokens"%string) min))))))))
      else None
  | [] => None
  end.

(** ** The program *)
(** [Path::join] with a relative name *)
Fixpoint ends_with_slash (s : string) : bool :=
  match s with
  | EmptyString => false
  | String c EmptyString => Ascii.eqb c "/"
  | String _ r => ends_with_slash r
  end.
Definition join (d name : string) : string :=
  match d with
  | EmptyString => name
  | _ => if ends_with_slash d then (d ++ name)%string else (d ++ "/" ++ name)%string
  end.
Definition in_dir (d : string) (ws : list (string * bstr)) : list (string * bstr) :=
  map (fun p => (join d (fst p), snd p)) ws.

(** A file given by its path, and one that need not be given, or is not opened
    if [unused]. *)
Definition read_file (fs : dir) (path : string) (text : bstr) : Prop := fs path = Some text.
Definition read_maybe (fs : dir) (unused : Prop) (path : option string) (text : option bstr) : Prop :=
  match path, text with
  | None, None => True
  | Some p, Some t => fs p = Some t \/ unused
  | _, _ => False
  end.

(** What the rest of the system does: there is a thread, a sort reorders, a read
    returns what it may, and loops are not cut short ([rounds] is the fuel of the
    model). *)
Record environment (threads rounds n : nat) (order : smap nat -> list bstr -> list bstr) (reads : nat -> nat) (data : bstr) : Prop := {
  env_threads : 1 <= threads;
  env_order : forall m l, Permutation (order m l) l;
  env_rounds : let b := 258 * (3 * length data) in S (n * S b + b) <= rounds;
  env_reads : forall pos, read_ok data (N.to_nat large) pos (reads pos)
}.

(** src/main.rs:310-348 [main]: the files at any moment during a run with these
    arguments, and after it.  A path stands for one file (no links, one
    spelling); temporary files are left out.  The data are what they were at the
    start: they are not among the files written. *)
Inductive program (fs : dir) (args : list string) : dir -> Prop :=
(** not (yet) changed: arguments refused, reading, a panic, any command *)
| prog_same : program fs args fs
| prog_process U script data output :
    parse_args args = Some (Process data output) ->
    program fs args (fst (process_command U script fs data output))
| prog_convert U script threads ratio reads data pd input tdir raw processed tokens name text fs' :
    parse_args args = Some (ConvertTokens data pd input tdir) ->
    read_file fs data raw -> read_file fs input tokens ->
    read_maybe fs (exists ts, read_token_set tokens = Ret ts /\ ts_processing ts = Raw) pd processed ->
    converts U script threads ratio reads raw processed tokens name text ->
    during_writes fs (in_dir tdir [(name, text)]) fs' -> program fs args fs'
| prog_optimize U script threads ratio reads order clock rounds data pd tdir p t n input raw processed itext content m ws fs' :
    parse_args args = Some (Optimize data pd tdir p t n input None) ->
    read_file fs data raw -> read_maybe fs (p = Raw) pd processed -> read_maybe fs False input itext ->
    maybe_process U script raw processed p = Ret content -> environment threads rounds (N.to_nat n) order reads content ->
    optimize_run U script threads reads order clock rounds (N.to_nat n) p t raw processed itext m ->
    written ratio m = Ret ws -> during_writes fs (in_dir tdir ws) fs' -> program fs args fs'
| prog_increasing U script threads ratio reads order clock near below rounds data pd tdir p t n input min raw processed itext content result saved ws fs' :
    parse_args args = Some (Optimize data pd tdir p t n input (Some min)) ->
    read_file fs data raw -> read_maybe fs (p = Raw) pd processed -> read_maybe fs False input itext ->
    maybe_process U script raw processed p = Ret content -> environment threads rounds (N.to_nat n) order reads content ->
    optimize_increasing U script threads reads order clock near below rounds (N.to_nat n) p t raw processed itext min result saved ->
    increasing_written ratio result saved = Ret ws -> during_writes fs (in_dir tdir ws) fs' -> program fs args fs'.
