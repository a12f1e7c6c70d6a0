*.vo
*.vok
*.vos
*.glob
*.aux
.*.aux
.*.cache
*.d
rocq/Makefile
rocq/Makefile.conf
__pycache__/
