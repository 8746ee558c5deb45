*.vo
*.vok
*.vos
*.glob
*.aux
.*.aux
.lia.cache
.nra.cache
.Makefile.d
.CoqMakefile.d
rocq/Makefile
rocq/Makefile.conf
lean/.lake/
.nia.cache
