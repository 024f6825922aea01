*.vo
*.vos
*.vok
*.glob
*.aux
.*.aux
*.d
Makefile
Makefile.conf
.Makefile.d
.lia.cache
.nia.cache
