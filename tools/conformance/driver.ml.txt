open Model
let explode s = List.init (String.length s) (String.get s)
let implode l = let b = Buffer.create 16 in List.iter (Buffer.add_char b) l; Buffer.contents b
let read f = let ic = open_in_bin f in let s = really_input_string ic (in_channel_length ic) in close_in ic; s
let fails = ref 0
let check name b = if not b then incr fails; Printf.printf "%s %s\n%!" (if b then "ok  " else "FAIL") name
let get = function Ret x -> x | _ -> failwith "panic"
let utf8 l = (* code points of a valid character *)
  match List.map Char.code l with
  | [a] -> a | [a;b] -> (a land 31) lsl 6 lor (b land 63)
  | [a;b;c] -> (a land 15) lsl 12 lor (b land 63) lsl 6 lor (c land 63) | _ -> 0
(* the part of the Unicode tables needed for the data of the repository *)
let up c = let n = utf8 c in (n >= 65 && n <= 90) || (n >= 0xc0 && n <= 0xde && n <> 0xd7)
let low c = let n = utf8 c in (n >= 97 && n <= 122) || (n >= 0xdf && n <= 0xff && n <> 0xf7) || n = 0x153
let tolow c = match c with [a] when up c -> [[Char.chr (Char.code a + 32)]]
  | [a;b] when up c -> [[a; Char.chr (Char.code b + 32)]] | _ -> [c]
let tables = { alphabetic = (fun c -> up c || low c); uppercase = up; lowercase = low;
  lower_char = tolow; cased = (fun c -> up c || low c); case_ignorable = (fun _ -> false) }
let proc s = implode (get (process_str tables (explode s)))
let add ts s = add_token_unchecked ts (explode s)
let total ts s =
  let tk = get (tokenizer_new ts) in
  let (st, _) = get (process_slice tk (explode s) (stats_new ts (Some 3)) []) in st.total_tokens
let () =
  (* src/processing.rs tests *)
  List.iter (fun (a,b) -> check ("process " ^ a) (proc a = b))
    ["Hello, world!","\x14hello\x16, world\x16!"; "hello, world!","hello\x16, world\x16!";
     "HELLO, world!","\x15hello\x16, world\x16!"; "HeLLo, world!","HeLLo\x16, world\x16!";
     "Hello world!","\x14hello\x16world\x16!"; "Hello , world!","\x14hello\x16 , world\x16!";
     "Hello, world ","\x14hello\x16, world\x16 "; "Hello, world","\x14hello\x16, world\x16";
     "Hello, World","\x14hello\x16, \x14world\x16"; "Hello World","\x14hello\x16\x14world\x16";
     "Hello WORLD","\x14hello\x16\x15world\x16"];
  (* src/tokenizer2.rs tests *)
  check "tokenize" (total (List.fold_left add (new_bits1 Raw true) ["a";"ab";"bc"]) "abc" = 2);
  check "tokenize_seq" (total (List.fold_left add (new_bits4 Raw true) ["ab";"b";"c";"d";"e";"bcde"]) "abcde" = 3);
  (* src/tokenset.rs tests *)
  check "token_to_json" (token_to_json (Ext '\127') = JNum 127 &&
    token_to_json (Str (explode "\xd0\xb0\xd0\xb1")) = JStr (explode "\xd0\xb0\xd0\xb1") &&
    token_to_json (Str (explode "\xb0\xff")) = JArr [JNum 0xb0; JNum 0xff]);
  let b4 = List.fold_left add (new_bits4 Raw true) ["a";"b";"c"] in
  let field k = function JObj l -> List.assoc (explode k) l | _ -> failwith "obj" in
  let len = function JArr l -> List.length l | _ -> -1 in
  let v = get (ts_to_json b4) in
  check "token_set_to_json" (field "type" v = JStr (explode "bits4") && len (field "tokens" v) = 19
    && len (field "sequences" v) = 253 && (match ts_from_json v with Ret _ -> true | _ -> false));
  check "token_set_name" (ts_name b4 = "tokens19_raw_bits4");
  let h = List.fold_left add (get (ts_new 2 Raw BytesHuff true)) in
  let q s l = { seq_string = explode s; seq_tokens = l } in
  let t = h ["b";"a";"c"] in
  let t = add_sequence (add_sequence t (explode "e") [3;0]) (explode "d") [2;3;1] in
  let t = get (ts_sort t) in
  check "sort" (t.tokens = [Ext '\000'; Ext '\001'; Str ['a']; Str ['b']; Str ['c']]
    && t.sequences = [q "d" [3;2;1]; q "e" [2;0]]);
  let t = h ["a";"bc";"c"] in
  let t = add_sequence (add_sequence t (explode "d") [2;0]) (explode "e") [4;2;1] in
  let t = get (remove_token t 3) in
  check "remove_token" (List.length t.tokens = 4 && List.nth t.tokens 3 = Str ['c']
    && t.sequences = [q "d" [2;0]; q "e" [3;2;1]]);
  (* the processed data file of the repository *)
  let raw = explode (read Sys.argv.(1)) in
  let (ok, out) = get (process_file tables default_capacity [] raw) in
  check "process_file data/pride.txt = data/pride_caps_words.txt" (ok && implode out = read Sys.argv.(2));
  (* memory sampler on the data *)
  let s = get (memory_samples (1 + List.length raw) raw 1048576) in
  check "memory sampler, one chunk" (List.concat s = raw && List.length s = 1);
  (* the saved token sets of the repository *)
  let dir = Sys.argv.(3) in
  let files = List.sort compare (Array.to_list (Sys.readdir dir)) in
  List.iter (fun name ->
    let text = explode (read (Filename.concat dir name)) in
    match parse_json text with None -> check ("parse " ^ name) false | Some v0 ->
    (* argv 4: the same values written compactly with sorted keys by another program *)
    check ("parse " ^ name ^ ", shown compactly") (implode (show v0) = read (Filename.concat Sys.argv.(4) name));
    let rec cut n l = if n = 0 then [] else match l with [] -> [] | x :: r -> x :: cut (n-1) r in
    check ("half of " ^ name ^ " rejected") (parse_json (cut (List.length text / 2) text) = None);
    let v = match v0 with JObj l -> JObj (List.filter (fun (k,_) -> k <> explode "stats") l) | v -> v in
    (match ts_from_json v0 with
     | Ret ts ->
         let same_name = ts_name ts ^ ".json" = name in
         let back = get (ts_to_json ts) in
         let strip = function JObj l -> List.filter (fun (k,_) -> k <> explode "split_paragraphs") l | _ -> [] in
         let dup = match ts.ts_type with Bits1 | Bits2 | Bits4 -> true | _ -> false in
         let same = strip back = strip v in
         let usable = if List.length ts.tokens > 600 then "-" else match tokenizer_new ts with Ret _ -> "yes" | _ -> "no" in
         check (Printf.sprintf "load %s: name %b, re-saved equal %b, accepted %s" name same_name same usable)
           (same_name && (dup || same) && (usable = "-" || (usable = "no") = dup))
     | _ -> check ("load " ^ name) false)) files;
  Printf.printf "%d failures\n" !fails; exit (if !fails = 0 then 0 else 1)
