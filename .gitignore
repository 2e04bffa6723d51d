*.vo
*.vos
*.vok
*.glob
*.aux
.*.aux
*.cache
.lia.cache
.nra.cache
Makefile
Makefile.conf
.Makefile.d
__pycache__/
