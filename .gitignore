*.vo
*.vok
*.vos
*.glob
*.aux
.*.aux
*.d
Makefile
Makefile.conf
.lia.cache
.nia.cache
CoqMakefile.conf
