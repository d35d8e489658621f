#!/bin/bash
# milestone: regenerate, commit, vcheck
cd /verif && python3 tools/gen_props.py > properties.jsonl && bash tools/project.sh && python3 tools/gen_manifest.py && python3 tools/gen_design.py && git add -A && git commit -qm "$1" && vcheck
