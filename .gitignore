*.vo
*.vok
*.vos
*.glob
*.aux
.*.aux
.lia.cache
.nia.cache
.nra.cache
.Makefile.d
.Makefile.coq.d
rocq/Makefile
rocq/Makefile.conf
