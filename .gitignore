*.vo
*.vok
*.vos
*.glob
*.aux
.*.aux
.nia.cache
.lia.cache
rocq/Makefile
rocq/Makefile.conf
rocq/.Makefile.d
