*.vo
*.vos
*.vok
*.glob
.*.aux
*.aux
.lia.cache
.nra.cache
rocq/Makefile
rocq/Makefile.conf
rocq/.Makefile.d
__pycache__
.nia.cache
