#!/usr/bin/env python3
"""Writes MANIFEST.json from the table below and checks every theorem name exists."""
import json, re, glob, os
root = os.path.dirname(os.path.dirname(os.path.abspath(__file__)))
C = {}
def c(pid, status, thms, note=""):
    C[pid] = dict(property=pid, status=status, theorems=thms.split(), note=note)
c("C01","proved","C01_tokenizer_exists_iff_usable","Both directions.")
c("C02","proved","C02_lossless tokenization_correct","One segmentation explains all counters.")
c("C03","proved","C03_optimal","Against the independent segmentation specification TokSpec.v.")
c("C04","proved","C04_totals_consistent")
c("C05","proved","C05_counts_are_occurrences")
c("C06","proved","C06_pair_counts")
c("C07","proved","C07_total_and_buffer_independent")
c("C09","proved","C09_adding_a_token_never_hurts")
c("C10","proved","C10_bounds")
c("C08","proved","C08_same_dictionary_same_total C08_sorting_keeps_total C08_sorting_keeps_usability")
c("C16","proved","C16_cutting_into_samples C16_tokenizing_two_parts C16_line_cuts_are_free")
c("C17","proved","C17_fresh_encodings C17_decodable")
c("C18","proved","C18_add_token")
c("C19","proved","C19_remove_token_iff C19_remove_token_otherwise_panics C19_remove_token_keeps_rest C19_add_then_remove")
c("C20","proved","C20_find_token")
c("C21","proved","C21_sort_succeeds_iff C21_sort_correct C21_sort_idempotent C21_sort_canonical")
c("C25","proved","C25_name_identifies")
c("C51","partial","C51_paragraph_cuts_free_partial C51_paragraph_cuts_not_free_refuted","The property is false: the refutation is proved. Proved instead: it holds if no string starts with a newline followed by something else.")
exec(open(os.path.join(root, "tools", "claims.py")).read()) if os.path.exists(os.path.join(root, "tools", "claims.py")) else None
names = set()
for f in glob.glob(os.path.join(root, "rocq/theories/*.v")):
    names |= set(re.findall(r"^\s*(?:Theorem|Lemma|Corollary|Fact|Proposition|Example)\s+([A-Za-z0-9_']+)", open(f).read(), re.M))
for v in C.values():
    for t in v["theorems"]:
        assert t in names, t
props = [json.loads(l)["id"] for l in open(os.path.join(root, "properties.jsonl"))]
missing = [p for p in props if p not in C]
if missing: print("no claim yet:", missing)
json.dump({"claims": [C[k] for k in sorted(C)]}, open(os.path.join(root, "MANIFEST.json"), "w"), indent=1)
