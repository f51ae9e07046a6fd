*.vo
*.vok
*.vos
*.glob
.*.aux
*.aux
Makefile*
.Makefile.d
.lia.cache
.nia.cache
__pycache__/
