*.vo
*.vos
*.vok
*.glob
*.aux
.*.aux
.*.d
.nra.cache
.lia.cache
.nia.cache
.coqdeps.d
Makefile
Makefile.conf
