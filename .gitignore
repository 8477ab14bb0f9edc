.nia.cache
*.nia.cache
*.nra.cache
.lia.cache
