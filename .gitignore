.nia.cache
.lia.cache
.nra.cache
.lia.cache
