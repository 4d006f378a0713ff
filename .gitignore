*.vo
*.vok
*.vos
*.glob
*.aux
.lia.cache
.nia.cache
.Makefile*
Makefile
Makefile.conf
__pycache__
.nra.cache
.lia.cache
