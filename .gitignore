.nra.cache
.lia.cache
.nia.cache
__pycache__/
