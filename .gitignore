*.vo
*.vos
*.vok
*.glob
*.aux
.*.aux
*.cache
.*.cache
rocq/Makefile*
rocq/.Makefile*
rocq/CoqMakefile*
.coqdeps.d
