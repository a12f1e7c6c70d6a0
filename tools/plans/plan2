0
C 0 1
