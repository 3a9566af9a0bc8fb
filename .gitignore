.lia.cache
.nra.cache
.lia.cache
