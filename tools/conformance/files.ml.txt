(* See files.sh. *)
open M
let repo = Sys.argv.(1)
let tbl = Array.init 256 (fun i -> n2b i)
let of_s s = List.init (String.length s) (fun i -> tbl.(Char.code s.[i]))
let to_s l = let b = Buffer.create 1000 in List.iter (fun x -> Buffer.add_char b (Char.chr (b2n x))) l; Buffer.contents b
let rec of_cs = function
  | EmptyString -> ""
  | String (Ascii (a,b,c,d,e,f,g,h), r) ->
    let v = List.fold_right (fun x n -> 2*n + (if x then 1 else 0)) [a;b;c;d;e;f;g;h] 0 in
    Stdlib.String.make 1 (Char.chr v) ^ of_cs r
let read f = let ic = open_in_bin f in let s = really_input_string ic (in_channel_length ic) in close_in ic; s
let failures = ref 0
let check name b = if not b then incr failures; Printf.printf "%-60s %s\n%!" name (if b then "ok" else "FAILED")
let ret = function Ret x -> x | Panic -> failwith "panic" | OutOfFuel -> failwith "fuel"

(* tokens/*.json were written by the program and all but one laid out by pretty.py *)
let files () =
  let fs = Sys.readdir (repo ^ "/tokens") in
  Array.sort compare fs;
  Array.iter (fun f ->
    let text = read (repo ^ "/tokens/" ^ f) in
    let bs = of_s text in
    if text.[1] = '"' then (* as the program wrote it *)
      check (f ^ ": serde_json's text") (match parse_json bs with Some v -> to_s (show v) = text | None -> false)
    else check (f ^ ": pretty leaves it alone") (match pretty (fun x -> x) bs with Some t -> to_s t = text | None -> false);
    let ts = ret (read_token_set bs) in
    check (f ^ ": name") (of_cs (file_name ts) = f);
    let field fs k = List.assoc_opt (of_s k) fs in
    let file = match parse_json bs with Some (JObj fs) -> fs | _ -> failwith "not an object" in
    let same v = match v with
      | JObj fs -> List.for_all (fun k -> field fs k = field file k) ["processing";"sequences";"tokens";"type"]
      | _ -> false in
    (* the model's sort is too slow for more *)
    if List.length ts.tokens <= 1024 then
    match ts.ts_type with
    | Bits1 | Bits2 | Bits4 ->
      (* the set that holds these tokens: a fresh one with them added *)
      let n = ts.n_ext_tokens in
      let fresh = ret (empty_of_type ts.ts_type n ts.ts_processing true) in
      let full = List.fold_left (fun t x -> match x with Str s -> fst (ret (add_token t s)) | Ext _ -> t) fresh ts.tokens in
      check (f ^ ": rebuilt from its tokens") (same (ret (ts_to_json (ret (ts_sort full)))))
    | _ ->
      check (f ^ ": written back") (same (ret (ts_to_json ts)));
      check (f ^ ": sorted") (ret (ts_sort ts) = ts)) fs

let () = files ();
  Printf.printf "%d failures\n" !failures; if !failures > 0 then exit 1
