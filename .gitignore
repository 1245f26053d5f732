*.lia.cache
.lia.cache
*.nra.cache
.nra.cache
