0
C 39 43
C 25 31
C 27 35
C 42 44
C 12 20
C 3 11
C 28 34
R 3 W 27 35 E 27 35 P 27 35
R 3 W 28 34 E 28 34 P 28 34
C 13 19
R 3 W 12 20 E 12 20 P 12 20
R 3 W 13 19 E 13 19 P 13 19
C 2 6
C 29 33
C 26 30
R 3 W 26 30 E 26 30 P 26 30
R 3 W 29 33 E 29 33 P 29 33
C 15 23
C 4 10
R 3 W 3 11 E 3 11 P 3 11
R 3 W 4 10 E 4 10 P 4 10
C 16 22
R 3 W 15 23 E 15 23 P 15 23
R 3 W 16 22 E 16 22 P 16 22
C 38 45
R 3 W 38 45 E 38 45 P 38 45
R 3 W 39 43 E 39 43 P 39 43
C 36 48
C 1 7
C 5 9
R 3 W 2 6 E 2 6 P 2 6
R 3 W 5 9 E 5 9 P 5 9
C 0 8
R 3 W 0 8 E 0 8 P 0 8
R 3 W 1 7 E 1 7 P 1 7
C 14 18
C 41 47
R 3 W 41 47 E 41 47 P 41 47
C 37 46
R 3 W 37 46 E 37 46 P 37 46
R 3 W 42 44 E 42 44 P 42 44
C 24 32
R 3 W 24 32 E 24 32 P 24 32
R 3 W 25 31 E 25 31 P 25 31
C 17 21
R 3 W 14 18 E 14 18 P 14 18
R 3 W 17 21 E 17 21 P 17 21
C 40 47
R 3 W 36 48 E 36 48 P 36 48
R 5 W 40 41 47 E 40 47 41 47 P 47 40 41
C 7 8
C 0 1
C 43 45
C 38 39
C 24 25
C 31 32
C 34 35
C 27 28
C 14 17
C 18 21
C 44 46
C 37 42
R 6 W 42 44 37 46 E 37 42 37 44 42 46 44 46 P 42 44 46 37
R 6 W 39 43 38 45 E 38 39 38 43 39 45 43 45 P 39 43 45 38
C 26 29
C 30 33
R 6 W 24 32 25 31 E 24 25 24 31 25 32 31 32 P 25 32 24 31
R 6 W 26 30 29 33 E 26 30 26 29 30 33 29 33 P 30 29 26 33
R 6 W 28 34 27 35 E 27 28 27 34 28 35 34 35 P 28 34 35 27
C 12 13
C 19 20
R 6 W 12 20 13 19 E 12 13 12 19 13 20 19 20 P 13 20 12 19
R 6 W 14 18 17 21 E 14 18 14 17 18 21 17 21 P 18 17 14 21
C 3 4
C 10 11
C 15 16
C 22 23
R 6 W 15 23 16 22 E 15 16 15 22 16 23 22 23 P 16 23 15 22
C 6 9
C 2 5
R 6 W 1 7 0 8 E 0 1 0 7 1 8 7 8 P 1 7 8 0
R 6 W 2 6 5 9 E 2 6 2 5 6 9 5 9 P 6 5 2 9
R 6 W 3 11 4 10 E 3 4 3 10 4 11 10 11 P 4 11 3 10
C 47 48
C 36 40
C 39 42
C 37 38
C 43 44
C 45 46
R 11 W 40 41 47 36 48 E 41 48 36 40 36 47 40 48 47 48 P 40 48 47 41 36
R 20 W 39 43 38 45 42 44 37 46 E 37 39 37 43 37 38 39 45 39 42 43 45 43 44 38 42 38 44 45 46 42 46 44 46 P 39 44 43 46 37 45 38 42
C 17 22
C 21 23
C 21 22
C 1 6
C 0 2
C 1 2
C 24 26
C 25 30
C 25 26
C 41 45
C 36 41
C 36 37
C 38 41
C 40 42
C 40 43
C 38 40
C 44 47
C 39 44
C 37 39
C 37 38
C 39 40
C 38 39
C 42 47
C 43 44
C 46 48
C 45 46
C 42 45
C 41 42
C 41 43
C 40 41
C 39 40
C 42 44
C 42 43
C 41 42
C 46 47
C 45 46
C 44 45
C 17 19
C 12 14
C 12 15
C 13 18
C 13 14
C 15 17
C 14 17
C 16 18
C 13 16
C 13 15
C 14 15
C 16 17
C 19 22
C 20 23
C 18 20
C 18 21
C 18 19
C 16 18
C 15 16
C 17 19
C 17 18
C 20 22
C 20 21
C 19 20
R 13 W 14 18 17 21 15 23 16 22 12 20 13 19 E 12 13 13 14 14 15 15 16 16 17 17 18 18 19 19 20 20 21 21 22 22 23 P 18 21 14 23 20 16 12 22 19 17 15 13
R 14 W 40 41 47 36 48 39 43 38 45 42 44 37 46 E 36 37 37 38 38 39 39 40 40 41 41 42 42 43 43 44 44 45 45 46 46 47 47 48 P 42 45 39 47 43 40 37 48 46 44 41 38 36
C 9 11
C 0 3
C 4 6
C 1 4
C 5 10
C 5 7
C 3 5
C 1 3
C 2 5
C 2 3
C 4 5
C 8 11
C 6 8
C 9 10
C 6 9
C 7 10
C 6 7
C 4 6
C 3 4
C 5 7
C 5 6
C 8 10
C 8 9
C 7 8
R 13 W 1 7 0 8 2 6 5 9 3 11 4 10 E 0 1 1 2 2 3 3 4 4 5 5 6 6 7 7 8 8 9 9 10 10 11 P 6 9 2 11 7 4 1 10 8 5 3 0
C 2 14
C 1 13
C 3 15
C 9 21
C 10 22
C 11 23
C 33 35
C 24 27
C 28 30
C 25 28
C 29 34
C 29 31
C 27 29
C 25 27
C 26 29
C 26 27
C 28 29
C 32 35
C 30 32
C 33 34
C 30 33
C 31 34
C 30 31
C 28 30
C 27 28
C 29 31
C 29 30
C 32 34
C 32 33
C 31 32
R 13 W 24 32 25 31 26 30 29 33 28 34 27 35 E 24 25 25 26 26 27 27 28 28 29 29 30 30 31 31 32 32 33 33 34 34 35 P 30 33 26 34 32 28 24 35 31 29 27 25
C 33 45
C 25 37
C 26 38
C 27 39
C 34 46
C 35 47
C 5 29
C 0 24
C 1 25
C 2 26
C 3 27
C 4 28
C 4 40
C 6 30
C 7 31
C 8 32
C 9 33
C 10 34
C 11 35
C 12 36
C 0 12
C 13 37
C 9 37
C 13 25
C 9 25
C 14 38
C 10 38
C 14 26
C 10 26
C 15 39
C 11 39
C 15 27
C 11 27
C 16 28
C 17 41
C 5 17
C 5 13
C 9 13
C 3 9
C 3 5
C 18 42
C 6 18
C 6 14
C 10 14
C 19 43
C 7 19
C 7 15
C 11 15
C 20 48
C 8 20
C 21 45
C 21 33
C 21 37
C 22 46
C 22 34
C 22 38
C 23 47
C 23 35
C 23 39
C 24 36
C 12 24
C 28 44
C 8 28
C 8 24
C 29 41
C 17 29
C 17 25
C 13 17
C 7 13
C 7 9
C 11 17
C 21 29
C 21 25
C 30 42
C 18 30
C 18 26
C 14 18
C 22 30
C 22 26
C 31 43
C 19 31
C 19 27
C 15 19
C 15 21
C 19 25
C 19 21
C 23 31
C 23 27
C 32 48
C 20 32
C 32 44
C 33 41
C 33 37
C 29 33
C 23 29
C 23 25
C 27 33
C 34 42
C 34 38
C 30 34
C 35 43
C 35 39
C 31 35
C 31 37
C 31 33
C 35 41
C 36 40
C 16 36
C 4 16
C 4 12
C 1 4
C 8 12
C 2 8
C 2 4
C 20 40
C 28 36
C 24 28
C 16 24
C 12 16
C 6 12
C 6 8
C 3 6
C 3 4
C 5 8
C 5 6
C 10 16
C 10 12
C 7 10
C 7 8
C 9 12
C 9 10
C 13 16
C 20 28
C 20 24
C 14 20
C 11 14
C 11 13
C 11 12
C 14 16
C 13 14
C 15 20
C 18 24
C 17 18
C 15 17
C 15 16
C 18 20
C 17 18
C 32 40
C 32 36
C 28 32
C 22 28
C 22 24
C 19 22
C 19 20
C 21 24
C 21 22
C 26 32
C 26 28
C 23 26
C 23 24
C 25 28
C 25 26
C 27 32
C 30 36
C 29 30
C 27 29
C 27 28
C 30 32
C 29 30
C 34 40
C 34 36
C 31 34
C 31 32
C 33 36
C 33 34
C 37 40
C 38 44
C 35 38
C 35 37
C 35 36
C 38 40
C 37 38
C 39 45
C 42 48
C 39 42
C 39 44
C 41 44
C 39 41
C 39 40
C 42 44
C 43 46
C 43 48
C 45 48
C 43 45
C 43 44
C 46 48
C 47 48
