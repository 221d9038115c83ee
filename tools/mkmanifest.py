#!/usr/bin/env python3
"""Writes /verif/MANIFEST.json; checks that every named theorem exists and that no Props theorem is forgotten."""
import json, os, re, glob
R=os.path.join(os.path.dirname(os.path.abspath(__file__)),"..")
C=[]
def m(prop,status,theorems,note=""):
    C.append(dict(property=prop,status=status,theorems=[t for t in theorems.split() if not re.search(r"_ex(_|$)",t)],note=note))
m("C01","partial","C01_undirected_partial C01_undirected_values_partial C01_meaning_partial C01_C02_meaning_partial meaning_of_names C01_count_element_refuted C01_element_raises_refuted meaning_row_degrees meaning_min_element meaning_has_self_edges",
  "Proved for every name listed, after every history whatsoever if the graph has a self-edge and every history without has_negative_diagonal otherwise. The full statement is false of the code for count_element+/- (counts non-empty rows once degrees are cached) and <op>_element- (AttributeError with self-edges once L-/U- are cached); both refuted with concrete histories.")
m("C02","partial","C02_directed_partial C02_directed_values_partial C02_meaning_partial C01_C02_meaning_partial meaning_of_names C02_total_degrees_plus_partial C02_has_self_edges_refuted C02_asked_first",
  "Proved for every history without total_degrees+ if the graph has a self-edge, and every history without has_negative_diagonal if it has none; the full statement is false: total_degrees+ cached first makes has_self_edges answer False (digraph.py 367-368). C02_asked_first: once has_self_edges was asked (before any of the traps was called), every listed name and total_degrees+ is right after whatever is called later, in any graph.")
m("C03","proved","C03_mask_is_restriction","histories that trigger none of the defects of C02/C05")
m("C04","partial","C04_get_properties_partial C04_sequence C04_refuted","C04_sequence holds for every graph, every state and every list of names: get_properties is a run of get_property over the requested names in some order, returning in the order requested what those calls return, or raising their first exception. The answers are those of get_property on its own for all names except has_negative_diagonal, total_degrees+, count_element+/- and names that raise; for count_element+ and <op>_element- they are not (C04_refuted), because those answers depend on what is cached (C01)")
m("C05","partial","C05_negative_edges_partial C05_negative_diagonal_partial C05_negative_diagonal_never_missed C05_fresh_graph C05_asked_first C05_negative_diagonal_refuted",
  "has_negative_diagonal is wrong after has_negative_edges+ was cached True (graph.py); proved correct from every state in which the shortcut is sound, including a fresh graph; the answer False is always right.")
m("C06","partial","C06_iso_values_partial C06_iso_value_first C06_iso_value_raises_refuted","iso_value raises KeyError after is_iso was cached False.")
exec(open(os.path.join(os.path.dirname(os.path.abspath(__file__)),"claims.py")).read()) if os.path.exists(os.path.join(os.path.dirname(os.path.abspath(__file__)),"claims.py")) else None
src="".join(open(f).read() for f in glob.glob(R+"/rocq/theories/*.v"))
have=set(re.findall(r"^\s*(?:Theorem|Lemma|Corollary)\s+(\w+)",src,re.M))
used=set(t for c in C for t in c["theorems"])
for t in used-have: print("MISSING",t)
for t in sorted(t for t in have-used if re.match(r"C\d\d_",t) and "example" not in t): print("UNLISTED",t)
props=[json.loads(l)["id"] for l in open(R+"/properties.jsonl")]
got=set(c["property"] for c in C)
print("props without claim:",[p for p in props if p not in got])
json.dump({"claims":C},open(R+"/MANIFEST.json","w"),indent=1)
