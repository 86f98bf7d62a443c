*.vo
*.vok
*.vos
*.glob
*.aux
.*.aux
*.cache
.coqdeps.d
.Makefile.d
.CoqMakefile.d
Makefile
Makefile.conf
