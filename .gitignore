*.vo
*.vos
*.vok
*.glob
*.aux
.lia.cache
.nia.cache
rocq/Makefile
rocq/Makefile.conf
rocq/.Makefile.d
.lia.cache
.nia.cache
.nia.cache
rocq/.lia.cache
.nra.cache
.nra.cache
.lia.cache
.nia.cache
