*.vo
*.vok
*.vos
*.glob
*.aux
.*.cache
*.cache
Makefile
Makefile.conf
.Makefile.d
