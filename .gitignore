*.vo
*.vok
*.vos
*.glob
.*.aux
.lia.cache
.nia.cache
.nra.cache
.lra.cache
Makefile
Makefile.conf
.Makefile.d
.coqdeps.d
