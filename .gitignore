rocq/Makefile.coq
rocq/Makefile.coq.conf
rocq/.Makefile.coq.d
*.vo
*.vok
*.vos
*.glob
*.aux
