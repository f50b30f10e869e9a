*.vo
*.vos
*.vok
*.glob
*.aux
.*.aux
.lia.cache
.nia.cache
.nra.cache
.lra.cache
Makefile
Makefile.conf
.Makefile.d
