.lia.cache
.nra.cache
*.vo
*.vok
*.vos
*.glob
*.aux
.*.aux
Makefile*
.Makefile.d
.nia.cache
