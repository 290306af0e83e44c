#!/usr/bin/env python3
"""Regenerates /verif/properties.jsonl from the table below (one place to edit)."""
import json, os
P = []
def prop(title, statement, quantifier, why, anchors):
    P.append(dict(id="C%02d" % (len(P) + 1), title=title, statement=statement,
                  quantifier=quantifier, why_tests_cant=why, anchors=anchors))
HJ="SeismicMesh/sizing/cpp/FastHJ.cpp"; SZ="SeismicMesh/sizing/mesh_size_function.py"
SDF="SeismicMesh/geometry/signed_distance_functions.py"; FG="SeismicMesh/geometry/cpp/fast_geometry.cpp"
GU="SeismicMesh/geometry/utils.py"; MG="SeismicMesh/generation/mesh_generator.py"; GNU="SeismicMesh/generation/utils.py"
MI="SeismicMesh/migration/migration.py"; CU="SeismicMesh/migration/cpp/cpputils.cpp"; BL="SeismicMesh/decomp/blocker.py"
DT2="SeismicMesh/generation/cpp/delaunay_class.cpp"; DE="SeismicMesh/generation/cpp/delaunay.cpp"; DT3="SeismicMesh/generation/cpp/delaunay_class3.cpp"
exec(open(os.path.join(os.path.dirname(os.path.abspath(__file__)), "props_table.py"), encoding="utf-8").read())
with open("/verif/properties.jsonl", "w", encoding="utf-8") as f:
    for p in P: f.write(json.dumps(p, ensure_ascii=False) + "\n")
print(len(P), "properties")
