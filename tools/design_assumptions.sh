#!/bin/sh
# Refresh section 6 of DESIGN.md from a built copy of rocq/: design_assumptions.sh ROCQ_DIR
cd "$(dirname "$0")/.." || exit 1
sed -i '/<!-- assumptions -->/q' DESIGN.md
python3 tools/assumptions.py "$1" >> DESIGN.md
