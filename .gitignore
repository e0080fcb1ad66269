
rocq/.*.cache
.lia.cache
.nia.cache
.nra.cache
.lia.cache
*.cache
