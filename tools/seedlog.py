#!/usr/bin/env python3
"""Turn the outputs of mutate.py into seeded/LOG.jsonl lines.  Survivors and what
was tightened for them are listed in TIGHT (by claim)."""
import json, sys
TIGHT = {
 "fields without a declared value have the default of their type": ["C86_extern_protos_are_read_as_written (values given by a separate table)"],
 "mustEvaluate is false by default": ["C85_scripts_are_read_as_written (fields and defaults of all Scripts listed separately)"],
 "(error reporting) IS on events of a Script as attribute": ["C66_reading_is_faithful (an IS attribute of a Script names a field or event of it)"],
 "(not in a claim here) reading a default is silent": ["C79_reading_is_silent", "C79_reading_a_class_is_silent (new theorems)"],
 "setting a dead weakref clears the field": ["C14_set_through_reference", "C14_fset_returns_live"],
 "events and fields are listed separately": ["C58/C59 theorems restated over the kinds of attributes"],
 "MFInt32 stores signed integers": ["C65_stored_format", "C65_integers_exact", "stored (specification made independent of the model's table)"],
 "setting a node list replaces its contents": ["C60_set_shows_nodes"],
 "assignment announces the field": ["C60_assignment_announced"],
 "USE of an unknown name is an error": ["C67_names_defined_before_use", "C66_reading_is_faithful (new theorems)"],
 "(error reporting) IS of an undeclared name fails at instantiation": ["C66_is_names_are_declared (new)", "C66_reading_is_faithful (maps_declared added to the meaning of a node)"],
 "(availability only) externalURL may be mapped": ["C66_is_names_are_declared (says so)"],
}
TIGHT.update(json.load(open(sys.argv[1])) if sys.argv[1].endswith(".json") else {})
seen = set()
for f in sys.argv[1:]:
    if f.endswith(".json"): continue
    for l in open(f):
        d = json.loads(l)
        if d.get("error"): continue
        key = (d["file"], d["old"], d["new"])
        if key in seen: continue
        seen.add(key)
        print(json.dumps({"definition": d["file"] + "." + d["def"], "edit": d["old"] + "  ==>  " + d["new"],
          "claim": d["claim"], "failed": d["failed"], "failed_lemmas": d.get("lemmas", []),
          "tightened": TIGHT.get(d["claim"], []) if not d["failed"] else []}))
