*.vo
*.vok
*.vos
*.glob
*.aux
.lia.cache
.nia.cache
.Makefile.d
Makefile.conf
rocq/Makefile
.nra.cache
.lia.cache
