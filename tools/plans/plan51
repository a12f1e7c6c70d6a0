0
C 40 47
C 44 46
C 30 36
R 3 W 30 36 E 30 36 P 30 36
C 38 50
C 25 37
C 13 22
C 14 21
C 31 33
C 27 34
C 39 48
R 3 W 39 48 E 39 48 P 39 48
R 3 W 44 46 E 44 46 P 44 46
C 5 9
C 28 32
R 3 W 27 34 E 27 34 P 27 34
R 3 W 28 32 E 28 32 P 28 32
C 4 10
C 3 11
R 3 W 3 11 E 3 11 P 3 11
R 3 W 4 10 E 4 10 P 4 10
C 2 6
R 3 W 2 6 E 2 6 P 2 6
R 3 W 5 9 E 5 9 P 5 9
C 15 19
R 3 W 14 21 E 14 21 P 14 21
R 3 W 15 19 E 15 19 P 15 19
C 0 8
C 18 20
R 3 W 13 22 E 13 22 P 13 22
R 3 W 18 20 E 18 20 P 18 20
C 12 24
C 17 23
R 3 W 17 23 E 17 23 P 17 23
C 43 49
R 3 W 43 49 E 43 49 P 43 49
C 16 23
R 3 W 12 24 E 12 24 P 12 24
R 5 W 16 17 23 E 16 23 17 23 P 23 16 17
C 1 7
R 3 W 0 8 E 0 8 P 0 8
R 3 W 1 7 E 1 7 P 1 7
C 26 35
R 3 W 26 35 E 26 35 P 26 35
R 3 W 31 33 E 31 33 P 31 33
C 32 34
C 27 28
C 29 36
R 3 W 25 37 E 25 37 P 25 37
R 5 W 29 30 36 E 29 36 30 36 P 36 29 30
C 42 49
R 3 W 38 50 E 38 50 P 38 50
R 5 W 42 43 49 E 42 49 43 49 P 49 42 43
C 13 18
C 20 22
C 10 11
C 3 4
C 7 8
C 0 1
C 41 45
R 3 W 40 47 E 40 47 P 40 47
R 3 W 41 45 E 41 45 P 41 45
C 14 15
C 19 21
R 6 W 13 22 18 20 E 13 18 13 20 18 22 20 22 P 18 22 13 20
R 6 W 14 21 15 19 E 14 15 14 19 15 21 19 21 P 15 21 14 19
C 39 44
C 46 48
C 33 35
C 26 31
R 6 W 31 33 26 35 E 26 31 26 33 31 35 33 35 P 31 33 35 26
R 6 W 28 32 27 34 E 27 28 27 32 28 34 32 34 P 28 32 34 27
C 6 9
C 2 5
R 6 W 1 7 0 8 E 0 1 0 7 1 8 7 8 P 1 7 8 0
R 6 W 2 6 5 9 E 2 6 2 5 6 9 5 9 P 6 5 2 9
R 6 W 4 10 3 11 E 3 4 3 10 4 11 10 11 P 4 10 11 3
C 45 47
C 40 41
R 6 W 39 48 44 46 E 39 44 39 46 44 48 46 48 P 44 48 39 46
R 6 W 41 45 40 47 E 40 41 40 45 41 47 45 47 P 41 45 47 40
C 49 50
C 38 42
C 23 24
C 12 16
C 25 29
C 36 37
C 1 6
C 0 2
C 1 2
C 28 31
C 26 27
C 32 33
C 34 35
R 11 W 25 37 29 30 36 E 25 29 25 36 30 37 29 37 36 37 P 29 37 25 30 36
R 20 W 28 32 27 34 31 33 26 35 E 26 28 26 32 26 27 28 34 28 31 32 34 32 33 27 31 27 33 34 35 31 35 33 35 P 28 33 32 35 26 34 27 31
C 39 40
C 41 44
C 45 46
C 47 48
R 11 W 42 43 49 38 50 E 43 50 38 42 38 49 42 50 49 50 P 42 50 49 43 38
R 20 W 39 48 44 46 41 45 40 47 E 39 41 39 45 39 40 41 44 41 47 45 46 45 47 40 44 40 46 44 48 46 48 47 48 P 44 46 45 48 41 47 39 40
C 21 22
C 13 14
C 15 18
C 19 20
R 11 W 16 17 23 12 24 E 17 24 12 16 12 23 16 24 23 24 P 16 24 23 17 12
R 20 W 14 21 15 19 13 22 18 20 E 13 14 13 15 13 19 14 18 14 20 15 21 15 18 19 21 19 20 21 22 18 22 20 22 P 14 21 15 22 13 18 19 20
C 20 23
C 15 20
C 16 18
C 16 19
C 17 21
C 12 17
C 12 13
C 13 15
C 14 17
C 14 16
C 13 14
C 15 16
C 14 15
C 18 23
C 19 20
C 22 24
C 21 22
C 18 21
C 17 18
C 17 19
C 16 17
C 15 16
C 18 20
C 18 19
C 17 18
C 22 23
C 21 22
C 20 21
C 48 50
C 42 44
C 42 45
C 43 47
C 38 43
C 38 39
C 40 43
C 40 42
C 46 49
C 41 46
C 39 41
C 39 40
C 41 42
C 40 41
C 44 49
C 45 46
C 47 48
C 44 47
C 43 44
C 43 45
C 42 43
C 41 42
C 44 46
C 44 45
C 43 44
C 48 49
C 47 48
C 46 47
R 14 W 14 21 15 19 13 22 18 20 16 17 23 12 24 E 12 13 13 14 14 15 15 16 16 17 17 18 18 19 19 20 20 21 21 22 22 23 23 24 P 18 21 14 23 19 16 13 24 22 20 17 15 12
R 14 W 39 48 44 46 41 45 40 47 42 43 49 38 50 E 38 39 39 40 40 41 41 42 42 43 43 44 44 45 45 46 46 47 47 48 48 49 49 50 P 44 48 41 49 46 42 39 50 47 45 43 40 38
C 19 45
C 12 38
C 16 42
C 17 43
C 18 44
C 20 46
C 33 36
C 28 33
C 29 31
C 29 32
C 30 34
C 25 30
C 25 26
C 26 28
C 27 30
C 27 29
C 26 27
C 28 29
C 27 28
C 31 36
C 32 33
C 35 37
C 34 35
C 31 34
C 30 31
C 30 32
C 29 30
C 28 29
C 31 33
C 31 32
C 30 31
C 35 36
C 34 35
C 33 34
R 14 W 28 32 27 34 31 33 26 35 25 37 29 30 36 E 25 26 26 27 27 28 28 29 29 30 30 31 31 32 32 33 33 34 34 35 35 36 36 37 P 31 34 28 36 32 29 26 37 35 33 30 27 25
C 4 6
C 0 3
C 1 4
C 5 10
C 5 7
C 3 5
C 1 3
C 2 5
C 2 3
C 4 5
C 9 11
C 8 11
C 6 8
C 9 10
C 6 9
C 7 10
C 6 7
C 4 6
C 3 4
C 5 7
C 5 6
C 8 10
C 8 9
C 7 8
R 13 W 4 10 3 11 1 7 0 8 2 6 5 9 E 0 1 1 2 2 3 3 4 4 5 5 6 6 7 7 8 8 9 9 10 10 11 P 6 9 3 10 7 4 1 11 8 5 2 0
C 0 29
C 4 33
C 5 30
C 6 31
C 7 32
C 12 25
C 0 16
C 0 12
C 1 13
C 2 14
C 3 15
C 4 38
C 5 17
C 6 18
C 7 19
C 8 24
C 9 21
C 10 22
C 11 23
C 20 25
C 4 20
C 4 12
C 26 39
C 1 26
C 1 4
C 13 39
C 13 26
C 5 13
C 27 40
C 2 27
C 14 40
C 14 27
C 6 14
C 28 41
C 3 28
C 15 41
C 15 28
C 7 15
C 29 42
C 30 43
C 17 30
C 31 44
C 18 31
C 32 45
C 19 32
C 33 46
C 33 38
C 25 33
C 20 25
C 33 38
C 34 47
C 9 34
C 9 39
C 9 26
C 9 13
C 3 9
C 17 26
C 13 17
C 7 13
C 21 47
C 21 34
C 21 39
C 21 30
C 21 26
C 34 43
C 34 39
C 30 34
C 35 48
C 10 35
C 10 40
C 10 27
C 10 14
C 18 27
C 14 18
C 22 48
C 22 35
C 22 40
C 22 31
C 22 27
C 35 44
C 35 40
C 31 35
C 36 49
C 11 36
C 11 41
C 11 28
C 11 15
C 11 17
C 19 28
C 15 19
C 15 21
C 19 26
C 23 49
C 23 36
C 23 41
C 23 32
C 23 28
C 23 30
C 28 34
C 36 45
C 36 41
C 32 36
C 32 39
C 32 34
C 36 43
C 37 50
C 8 37
C 8 29
C 16 29
C 8 16
C 8 20
C 8 12
C 2 8
C 2 4
C 3 8
C 6 12
C 5 6
C 3 5
C 3 4
C 6 8
C 5 6
C 9 12
C 16 25
C 16 20
C 10 16
C 7 10
C 7 12
C 7 9
C 7 8
C 10 12
C 13 16
C 14 20
C 11 14
C 11 16
C 11 13
C 11 12
C 14 16
C 15 20
C 24 50
C 24 37
C 24 42
C 24 29
C 24 33
C 24 25
C 18 24
C 17 18
C 15 17
C 15 16
C 18 20
C 17 18
C 21 24
C 22 25
C 19 22
C 19 24
C 19 21
C 19 20
C 22 24
C 25 26
C 29 38
C 29 33
C 27 29
C 23 27
C 23 25
C 23 24
C 26 27
C 25 26
C 29 30
C 31 33
C 28 31
C 28 29
C 27 28
C 30 31
C 29 30
C 37 46
C 37 42
C 37 38
C 35 37
C 33 35
C 32 33
C 31 32
C 34 35
C 33 34
C 37 39
C 38 40
C 36 38
C 36 39
C 36 37
C 35 36
C 38 39
C 41 47
C 41 43
C 42 45
C 42 44
C 40 42
C 40 41
C 39 40
C 42 43
C 41 42
C 46 48
C 46 47
C 44 46
C 43 44
C 45 47
C 45 46
C 49 50
C 48 49
C 47 48
