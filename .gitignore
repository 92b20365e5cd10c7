.lia.cache
*.nia.cache
.nia.cache
.lia.cache
.lia.cache
.nra.cache
.nia.cache
.csdp.cache
tools/__pycache__/
.nra.cache
.lia.cache
.nia.cache
