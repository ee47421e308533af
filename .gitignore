.lia.cache
