*.vo
*.vok
*.vos
*.glob
*.aux
.lia.cache
.nia.cache
Makefile
Makefile.conf
.Makefile.d
rocq/Makefile*
rocq/.Makefile*
.nra.cache
.lia.cache
.nia.cache
.csdp.cache
__pycache__/
