rocq/.lia.cache
rocq/.nia.cache
rocq/.nra.cache
