*.vo
*.vok
*.vos
*.glob
*.aux
Makefile
Makefile.conf
.Makefile.d
*.d
theories/.lia.cache
theories/.nia.cache
.lia.cache
.nia.cache
.nra.cache
