*.vo
*.vok
*.vos
*.glob
*.aux
.lia.cache
.nia.cache
.Makefile.d
.CoqMakefile.d
rocq/Makefile
rocq/Makefile.conf
