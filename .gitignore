*.vo
*.vok
*.vos
*.glob
*.aux
.*.aux
.lia.cache
.nia.cache
.coqdeps.d
.Makefile.d
rocq/Makefile
rocq/Makefile.conf
