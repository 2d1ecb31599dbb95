*.vo
*.vok
*.vos
*.glob
.*.aux
.lia.cache
.nra.cache
Makefile
Makefile.conf
.Makefile.d
*.d
.nia.cache
