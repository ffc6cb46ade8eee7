*.vo
*.vos
*.vok
*.glob
.*.aux
.lia.cache
.nra.cache
rocq/Makefile
rocq/Makefile.conf
rocq/.Makefile.d
.nia.cache
