.nia.cache
*.cache
