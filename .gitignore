*.vo
*.vok
*.vos
*.glob
*.aux
.*.aux
*.d
rocq/Makefile
rocq/Makefile.conf
.Makefile.d
.lia.cache
.nia.cache
