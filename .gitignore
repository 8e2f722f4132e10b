*.vo
*.vok
*.vos
*.glob
*.aux
.*.cache
.Makefile.d
Makefile
Makefile.conf
__pycache__/
