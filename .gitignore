*.aux
*.glob
*.vo
*.vok
*.vos
.*.aux
.Makefile.d
.lia.cache
.nia.cache
.nra.cache
__pycache__/
rocq/.Makefile.d
rocq/Makefile
rocq/Makefile.conf
