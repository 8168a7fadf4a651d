.lia.cache
.nra.cache
.lia.cache
*.cache
*.cache
