*.vo
*.vos
*.vok
*.glob
*.aux
.*.aux
*.d
.Makefile.d
rocq/Makefile
rocq/Makefile.conf
.lia.cache
.nia.cache
.*.cache
