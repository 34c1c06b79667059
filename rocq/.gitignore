*.vo
*.vok
*.vos
*.glob
*.aux
Makefile
Makefile.conf
.Makefile.d
*.d
.lia.cache
CPall
MKall*
.MKall*
.nia.cache
.lia.cache
