*.vo
*.vok
*.vos
*.glob
*.aux
.*.aux
.*.d
*.cache
rocq/Makefile
rocq/Makefile.conf
