*.nia.cache
*.lia.cache
.nia.cache
.lia.cache
.nra.cache
*.nra.cache
