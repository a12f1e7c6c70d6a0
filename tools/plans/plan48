0
C 0 13
C 1 12
C 2 15
C 3 14
C 4 8
R 3 W 3 14 E 3 14 P 3 14
R 3 W 4 8 E 4 8 P 4 8
C 5 6
R 3 W 0 13 E 0 13 P 0 13
R 3 W 5 6 E 5 6 P 5 6
C 7 11
R 3 W 1 12 E 1 12 P 1 12
R 3 W 7 11 E 7 11 P 7 11
C 9 10
R 3 W 2 15 E 2 15 P 2 15
R 3 W 9 10 E 9 10 P 9 10
C 16 29
C 17 28
C 18 31
C 19 30
C 20 24
R 3 W 19 30 E 19 30 P 19 30
R 3 W 20 24 E 20 24 P 20 24
C 21 22
R 3 W 16 29 E 16 29 P 16 29
R 3 W 21 22 E 21 22 P 21 22
C 23 27
R 3 W 17 28 E 17 28 P 17 28
R 3 W 23 27 E 23 27 P 23 27
C 25 26
R 3 W 18 31 E 18 31 P 18 31
R 3 W 25 26 E 25 26 P 25 26
C 32 45
C 33 44
C 34 47
C 35 46
C 36 40
R 3 W 35 46 E 35 46 P 35 46
R 3 W 36 40 E 36 40 P 36 40
C 37 38
R 3 W 32 45 E 32 45 P 32 45
R 3 W 37 38 E 37 38 P 37 38
C 39 43
R 3 W 33 44 E 33 44 P 33 44
R 3 W 39 43 E 39 43 P 39 43
C 41 42
R 3 W 34 47 E 34 47 P 34 47
R 3 W 41 42 E 41 42 P 41 42
C 0 5
C 6 13
C 1 7
C 11 12
R 6 W 0 13 5 6 E 0 5 0 6 5 13 6 13 P 5 13 0 6
R 6 W 1 12 7 11 E 1 7 1 11 7 12 11 12 P 7 12 1 11
C 2 9
C 10 15
R 6 W 2 15 9 10 E 2 9 2 10 9 15 10 15 P 9 15 2 10
C 3 4
C 8 14
R 6 W 3 14 4 8 E 3 4 3 8 4 14 8 14 P 4 14 3 8
C 16 21
C 22 29
C 17 23
C 27 28
R 6 W 16 29 21 22 E 16 21 16 22 21 29 22 29 P 21 29 16 22
R 6 W 17 28 23 27 E 17 23 17 27 23 28 27 28 P 23 28 17 27
C 18 25
C 26 31
R 6 W 18 31 25 26 E 18 25 18 26 25 31 26 31 P 25 31 18 26
C 19 20
C 24 30
R 6 W 19 30 20 24 E 19 20 19 24 20 30 24 30 P 20 30 19 24
C 32 37
C 38 45
C 33 39
C 43 44
R 6 W 32 45 37 38 E 32 37 32 38 37 45 38 45 P 37 45 32 38
R 6 W 33 44 39 43 E 33 39 33 43 39 44 43 44 P 39 44 33 43
C 34 41
C 42 47
R 6 W 34 47 41 42 E 34 41 34 42 41 47 42 47 P 41 47 34 42
C 35 36
C 40 46
R 6 W 35 46 36 40 E 35 36 35 40 36 46 40 46 P 36 46 35 40
C 0 1
C 12 13
C 2 3
C 14 15
C 16 17
C 28 29
C 18 19
C 30 31
C 32 33
C 44 45
C 34 35
C 46 47
C 0 2
C 1 3
C 1 2
C 4 5
C 6 8
C 7 9
C 6 7
C 8 9
C 10 11
C 4 10
C 4 6
C 1 4
C 2 6
C 5 11
C 5 7
C 8 10
C 5 8
C 7 10
C 9 11
C 12 14
C 3 12
C 13 15
C 13 14
C 9 13
C 11 14
C 16 18
C 17 19
C 17 18
C 20 21
C 22 24
C 23 25
C 22 23
C 24 25
C 26 27
C 20 26
C 20 22
C 17 20
C 18 22
C 21 27
C 21 23
C 24 26
C 21 24
C 23 26
C 25 27
C 28 30
C 19 28
C 29 31
C 29 30
C 25 29
C 27 30
R 45 W 0 13 5 6 1 12 7 11 2 15 9 10 3 14 4 8 E 0 1 1 2 1 4 2 6 2 3 2 8 4 5 4 6 5 7 5 8 3 12 3 9 6 12 6 7 8 9 8 10 12 13 7 13 7 10 9 13 9 11 10 11 13 14 11 14 14 15 P 7 13 2 11 9 5 1 15 10 12 6 14 4 0 8 3
R 45 W 16 29 21 22 17 28 23 27 18 31 25 26 19 30 20 24 E 16 17 17 18 17 20 18 22 18 19 18 24 20 21 20 22 21 23 21 24 19 28 19 25 22 28 22 23 24 25 24 26 28 29 23 29 23 26 25 29 25 27 26 27 29 30 27 30 30 31 P 23 29 18 27 25 21 17 31 26 28 22 30 20 16 24 19
C 32 34
C 33 35
C 33 34
C 36 37
C 38 40
C 39 41
C 38 39
C 40 41
C 42 43
C 36 42
C 36 38
C 33 36
C 34 38
C 37 43
C 37 39
C 40 42
C 37 40
C 39 42
C 41 43
C 44 46
C 35 44
C 45 47
C 45 46
C 41 45
C 43 46
R 45 W 32 45 37 38 33 44 39 43 34 47 41 42 35 46 36 40 E 32 33 33 34 33 36 34 38 34 35 34 40 36 37 36 38 37 39 37 40 35 44 35 41 38 44 38 39 40 41 40 42 44 45 39 45 39 42 41 45 41 43 42 43 45 46 43 46 46 47 P 39 45 34 43 41 37 33 47 42 44 38 46 36 32 40 35
C 1 33
C 2 34
C 5 37
C 10 42
C 13 45
C 14 46
C 1 17
C 3 19
C 3 35
C 5 21
C 8 24
C 8 40
C 9 25
C 11 27
C 13 29
C 15 31
C 16 32
C 0 16
C 16 32
C 5 32
C 17 33
C 18 34
C 2 18
C 2 5
C 19 35
C 8 19
C 20 36
C 4 20
C 4 16
C 1 4
C 2 4
C 3 16
C 20 36
C 21 37
C 16 21
C 22 38
C 6 22
C 6 17
C 3 6
C 3 4
C 5 6
C 4 5
C 22 38
C 23 39
C 7 39
C 7 23
C 7 34
C 7 20
C 7 16
C 6 7
C 24 40
C 13 40
C 13 36
C 19 24
C 25 41
C 9 25
C 9 33
C 9 17
C 16 17
C 17 20
C 26 42
C 10 26
C 27 43
C 11 27
C 11 34
C 11 21
C 27 40
C 28 44
C 12 44
C 12 28
C 12 32
C 12 18
C 9 12
C 7 12
C 22 32
C 10 32
C 13 22
C 8 13
C 8 16
C 8 9
C 6 8
C 5 6
C 12 16
C 19 22
C 13 19
C 28 39
C 23 28
C 23 33
C 29 45
C 30 46
C 14 30
C 14 38
C 14 24
C 14 23
C 11 14
C 11 17
C 14 20
C 21 23
C 24 33
C 30 41
C 30 38
C 31 47
C 15 31
C 15 42
C 15 35
C 15 25
C 15 37
C 10 15
C 10 18
C 10 13
C 10 11
C 9 10
C 7 9
C 7 8
C 10 12
C 9 10
C 13 17
C 11 13
C 15 22
C 18 19
C 14 18
C 14 16
C 11 14
C 11 12
C 13 16
C 13 14
C 17 18
C 19 20
C 25 34
C 25 28
C 29 35
C 31 43
C 31 44
C 26 31
C 26 36
C 24 26
C 21 24
C 23 26
C 31 40
C 30 31
C 27 30
C 32 37
C 25 32
C 15 25
C 15 21
C 15 19
C 15 17
C 15 16
C 18 19
C 17 18
C 20 21
C 22 32
C 22 23
C 24 25
C 22 24
C 20 22
C 19 20
C 21 24
C 21 22
C 23 25
C 26 32
C 29 37
C 33 36
C 27 33
C 30 36
C 34 39
C 28 34
C 28 29
C 27 28
C 26 27
C 23 26
C 23 24
C 25 27
C 25 26
C 28 32
C 29 33
C 31 39
C 34 37
C 30 34
C 29 30
C 28 29
C 27 28
C 30 32
C 29 30
C 35 38
C 36 37
C 34 36
C 38 39
C 37 38
C 41 44
C 42 45
C 41 42
C 40 41
C 35 40
C 31 35
C 31 33
C 31 34
C 31 32
C 33 36
C 33 34
C 35 37
C 35 36
C 38 40
C 37 38
C 39 41
C 39 40
C 43 46
C 43 45
C 43 44
C 42 43
C 41 42
