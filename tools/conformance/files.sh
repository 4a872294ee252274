#!/bin/bash
# Compares the extracted model with the token files in /repo: the layout of
# pretty.py, and the sets rebuilt from their tokens.  Not part of the proof build.
set -e
here=$(cd "$(dirname "$0")" && pwd)
cd "$(mktemp -d)"
cat > ex.v <<'V'
From Verif Require Import Base Utf8 TokenSetModel TokenizerModel BatchModel JsonModel JsonText ProcessingModel PrettyModel CommandsModel.
Require Import ExtrOcamlBasic ExtrOcamlNatInt.
Extraction Language OCaml.
(* Nat.to_uint is linear in the number; the files hold numbers above 10^11 *)
Extract Constant show_nat => "(fun n -> let s = Stdlib.string_of_int n in let rec go i = if i >= Stdlib.String.length s then EmptyString else let c = Stdlib.Char.code (Stdlib.String.get s i) in let b k = (c lsr k) land 1 = 1 in String (Ascii (b 0,b 1,b 2,b 3,b 4,b 5,b 6,b 7), go (i+1)) in go 0)".
Extraction "m.ml" process_file process_str read_token_set ts_to_json token_to_json set_text pretty tokenizer_new process_slice stats_new
  b2n n2b file_name empty_of_type add_token add_sequence ts_new ts_sort remove_token parse_json show type_name.
V
coqc -Q "$here/../../rocq/theories" Verif ex.v
cp "$here/files.ml.txt" driver.ml
ocamlfind ocamlopt -w -a m.mli m.ml driver.ml -o driver
ulimit -s unlimited
./driver /repo
