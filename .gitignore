*.aux
*.glob
*.vo
*.vok
*.vos
.*.aux
.Makefile.d
.coqdeps.d
.lia.cache
.nia.cache
Makefile.conf
rocq/Makefile
.nra.cache
.lra.cache
