*.vo
*.vok
*.vos
*.glob
*.aux
.lia.cache
.nia.cache
.Makefile.d
.coqdeps.d
rocq/Makefile
rocq/Makefile.conf
rocq/.Makefile.d
