*.vo
*.vok
*.vos
*.glob
*.aux
.*.aux
.lia.cache
.nia.cache
.Makefile.d
.Makefile.coq.d
Makefile
Makefile.conf
Makefile.coq
Makefile.coq.conf
.nra.cache
