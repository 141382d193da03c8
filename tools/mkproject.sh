#!/bin/sh
# Regenerate the file list of rocq/_CoqProject (flag line unchanged).
cd /verif/rocq && { echo '-Q theories Verif'; ls theories/*.v; } > _CoqProject
