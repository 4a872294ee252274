#!/bin/bash
# Runs the extracted model against the unit tests and data files of /repo.
# Needs a built /verif/rocq (or $ROCQ); not part of the proof build.
set -e
HERE=$(cd "$(dirname "$0")" && pwd); ROCQ=${ROCQ:-$HERE/../../rocq}; OUT=$(mktemp -d)
cd "$OUT"
cat > extract.v <<'V'
From Coq Require Import Extraction ExtrOcamlBasic ExtrOcamlNatInt ExtrOcamlNativeString.
From Verif Require Import Base TokenSetModel TokenizerModel Utf8 JsonModel JsonText BatchModel SamplerModel ProcessingModel OptBytesModel OptimizeModel.
(* unary in the model *)
Extract Constant show_nat => "string_of_int".
Extraction "model.ml" b2n n2b ts_new new_bits1 new_bits2 new_bits4 new_bytes add_token_unchecked add_sequence
  remove_token find_token ts_sort ts_name tokenizer_new process_slice stats_new tokenize_file_sync
  ts_to_json ts_from_json show parse_json token_to_json memory_samples process_str process_file default_capacity
  simple_bytes huff_bytes add_token_bpe is_valid_token count_tokens_in_bytes.
V
coqc -Q "$ROCQ/theories" Verif extract.v > /dev/null
cp "$HERE/driver.ml.txt" main.ml
ocamlfind ocamlopt -w -a -O3 -package str -linkpkg model.mli model.ml main.ml -o conf 2>/dev/null || ocamlfind ocamlopt -w -a model.mli model.ml main.ml -o conf
mkdir compact; python3 - <<'P'
import json, glob, os
for f in glob.glob('/repo/tokens/*.json'):
    open('compact/' + os.path.basename(f), 'wb').write(
        json.dumps(json.load(open(f)), separators=(',', ':'), ensure_ascii=False, sort_keys=True).encode())
P
ulimit -s unlimited
./conf /repo/data/pride.txt /repo/data/pride_caps_words.txt /repo/tokens compact
