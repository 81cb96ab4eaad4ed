#!/bin/bash
# rewrites the file list of rocq/_CoqProject (flags line kept)
cd /verif/rocq && { echo "-Q theories Verif"; ls theories/*.v | sort; } > _CoqProject
