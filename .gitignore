*.vo
*.vok
*.vos
*.glob
*.aux
.*.aux
.lia.cache
.nia.cache
*.conf
rocq/Makefile*
__pycache__/
*.d
