*.vo
*.vok
*.vos
*.glob
*.aux
.*.aux
.nra.cache
.lia.cache
Makefile
Makefile.conf
.Makefile.d
.coqdeps.d
.nia.cache
