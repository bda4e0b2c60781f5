*.aux
*.glob
*.vo
*.vok
*.vos
.Makefile.d
.lia.cache
.nia.cache
Makefile
Makefile.conf
.nra.cache
.lia.cache
.nia.cache
tools/__pycache__/
