*.vo
*.vok
*.vos
*.glob
*.aux
.*.cache
Makefile*
.Makefile*
rocq/.coqdeps.d
