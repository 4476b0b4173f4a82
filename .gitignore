*.vo
*.vok
*.vos
*.glob
*.aux
.*.aux
.lia.cache
.nra.cache
.nia.cache
Makefile
Makefile.conf
.Makefile.d
.CoqMakefile.d
__pycache__
