1
C 0 1
C 2 3
R 3 W 0 1 E 0 1 P 0 1
R 3 W 2 3 E 2 3 P 2 3
C 4 5
C 6 7
R 3 W 4 5 E 4 5 P 4 5
R 3 W 6 7 E 6 7 P 6 7
C 8 9
C 10 11
R 3 W 8 9 E 8 9 P 8 9
R 3 W 10 11 E 10 11 P 10 11
C 12 13
C 14 15
R 3 W 12 13 E 12 13 P 12 13
R 3 W 14 15 E 14 15 P 14 15
C 16 17
C 18 19
R 3 W 16 17 E 16 17 P 16 17
R 3 W 18 19 E 18 19 P 18 19
C 20 21
C 22 23
R 3 W 20 21 E 20 21 P 20 21
R 3 W 22 23 E 22 23 P 22 23
C 24 25
C 26 27
R 3 W 24 25 E 24 25 P 24 25
R 3 W 26 27 E 26 27 P 26 27
C 0 2
C 1 3
C 4 6
C 5 7
R 6 W 0 1 2 3 E 0 1 0 2 1 3 2 3 P 1 2 0 3
R 6 W 4 5 6 7 E 4 5 4 6 5 7 6 7 P 5 6 4 7
C 8 10
C 9 11
C 12 14
C 13 15
R 6 W 8 9 10 11 E 8 9 8 10 9 11 10 11 P 9 10 8 11
R 6 W 12 13 14 15 E 12 13 12 14 13 15 14 15 P 13 14 12 15
C 16 18
C 17 19
R 6 W 16 17 18 19 E 16 17 16 18 17 19 18 19 P 17 18 16 19
C 20 22
C 21 23
C 24 26
C 25 27
R 6 W 20 21 22 23 E 20 21 20 22 21 23 22 23 P 21 22 20 23
R 6 W 24 25 26 27 E 24 25 24 26 25 27 26 27 P 25 26 24 27
C 0 4
C 1 5
C 2 6
C 3 7
C 8 12
C 9 13
C 20 24
C 21 25
C 22 26
C 23 27
R 20 W 0 1 2 3 4 5 6 7 E 0 1 0 2 0 4 1 3 1 5 2 3 2 6 4 5 4 6 3 7 5 7 6 7 P 1 6 2 7 0 3 4 5
R 20 W 20 21 22 23 24 25 26 27 E 20 21 20 22 20 24 21 23 21 25 22 23 22 26 24 25 24 26 23 27 25 27 26 27 P 21 26 22 27 20 23 24 25
C 9 17
C 12 16
C 8 12
C 9 16
C 13 17
C 14 18
C 10 18
C 10 14
C 15 19
C 11 15
C 11 18
C 15 19
C 0 20
C 1 21
C 2 22
C 1 2
C 3 23
C 4 24
C 4 20
C 5 25
C 6 26
C 5 6
C 3 5
C 7 27
C 7 23
C 21 22
C 22 24
C 25 26
R 43 W 8 9 10 11 12 13 14 15 16 17 18 19 E 8 9 8 10 8 12 9 11 9 13 9 16 10 11 10 14 12 13 12 14 12 16 11 15 11 18 13 15 13 17 14 15 14 18 16 17 16 18 17 19 15 19 18 19 P 11 13 12 18 14 10 19 16 9 8 15 17
C 0 8
C 1 9
C 2 12
C 4 10
C 2 4
C 6 16
C 7 13
C 3 7
C 10 22
C 6 10
C 4 6
C 11 21
C 9 11
C 3 9
C 14 20
C 8 14
C 1 8
C 1 2
C 4 8
C 2 4
C 15 25
C 7 15
C 17 23
C 5 17
C 5 11
C 5 9
C 17 21
C 11 17
C 7 11
C 18 26
C 16 18
C 16 22
C 10 16
C 19 27
C 13 19
C 13 15
C 13 17
C 19 26
C 20 24
C 12 20
C 12 14
C 6 12
C 6 8
C 10 14
C 9 14
C 10 12
C 3 10
C 3 6
C 3 4
C 5 12
C 5 8
C 5 6
C 16 20
C 7 16
C 7 9
C 7 10
C 7 8
C 9 12
C 9 10
C 11 20
C 14 16
C 18 24
C 18 22
C 13 18
C 11 13
C 11 14
C 11 12
C 13 16
C 13 14
C 18 20
C 23 25
C 21 23
C 15 21
C 15 17
C 15 22
C 15 18
C 15 16
C 17 24
C 17 20
C 17 18
C 19 23
C 19 21
C 19 22
C 19 20
C 21 24
C 21 22
C 25 26
C 23 25
C 23 24
