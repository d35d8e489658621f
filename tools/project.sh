#!/bin/sh
# Regenerate rocq/_CoqProject: fixed flag line followed by every theory file.
cd "$(dirname "$0")/../rocq" && { echo "-Q theories Verif"; ls theories/*.v; } > _CoqProject
