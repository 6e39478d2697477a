*.vo
*.vok
*.vos
*.glob
*.aux
.*.aux
*.cache
.coqdeps.d
.Makefile.d
Makefile
Makefile.conf
