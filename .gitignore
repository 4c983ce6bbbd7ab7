*.vo
*.vos
*.vok
*.glob
*.aux
.*.aux
.lia.cache
.nia.cache
Makefile*
.Makefile.d
.lia.cache
.nia.cache
.nra.cache
