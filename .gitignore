.lia.cache
.nia.cache
*.vo
*.vok
*.vos
*.glob
*.aux
.nra.cache
.lia.cache
.csdp.cache
