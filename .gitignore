*.vo
*.vok
*.vos
*.glob
*.aux
.*.aux
*.d
.lia.cache
.nia.cache
.nra.cache
rocq/Makefile
rocq/Makefile.conf
