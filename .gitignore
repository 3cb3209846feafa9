.lia.cache
*.cache
