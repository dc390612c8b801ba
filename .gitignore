*.vo
*.vok
*.vos
*.glob
*.aux
.*.aux
*.d
.Makefile.d
rocq/Makefile
rocq/Makefile.conf
rocq/.lia.cache
.lia.cache
