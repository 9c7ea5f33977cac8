*.vo
*.vos
*.vok
*.glob
*.aux
.lia.cache
.nia.cache
.coqdeps.d
rocq/Makefile
rocq/Makefile.conf
rocq/.Makefile.d
__pycache__/
.nra.cache
.lia.cache
.nia.cache
