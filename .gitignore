rocq/**/*.vo
rocq/**/*.vok
rocq/**/*.vos
rocq/**/*.glob
rocq/**/.*.aux
*.lia.cache
*.nia.cache
