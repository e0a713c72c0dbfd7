*.aux
*.d
*.glob
*.vo
*.vok
*.vos
.Makefile.d
.csdp.cache
.lia.cache
.lra.cache
.nia.cache
.nra.cache
Makefile
Makefile.conf
