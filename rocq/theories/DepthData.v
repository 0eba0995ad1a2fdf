(** Data for the depth of trees with chosen protocol ids: factors of the widths that are tried, and numbers
    divisible by them. Produced by a program outside of this development; everything used is checked in
    DepthProofs.v. *)
From Verif Require Import Base.
Local Open Scope N_scope.

(** Primes with the powers [(e, d, c)] for which p^e divides 2^d - c. *)
Definition factors : list (N * list (N * nat * N)) := [
   
    (2, [(8, 8%nat, 0); (9, 9%nat, 0); (10, 10%nat, 0); (11, 11%nat, 0); (12, 12%nat, 0); (13, 13%nat, 0); (14, 14%nat, 0); (15, 15%nat, 0); (16, 16%nat, 0); (17, 17%nat, 0); (18, 18%nat, 0)]);
    (3, [(5, 8%nat, 13); (6, 10%nat, 295)]); (5, [(3, 8%nat, 6); (4, 10%nat, 399)]);
    (7, [(2, 8%nat, 11); (3, 9%nat, 169); (4, 18%nat, 435)]); (11, [(2, 8%nat, 14); (3, 12%nat, 103)]);
    (13, [(2, 8%nat, 87)]); (17, [(1, 8%nat, 1); (2, 9%nat, 223)]); (19, [(1, 8%nat, 9); (2, 9%nat, 151)]);
    (23, [(1, 8%nat, 3); (2, 10%nat, 495)]); (29, [(1, 8%nat, 24); (2, 10%nat, 183)]);
    (31, [(1, 8%nat, 8); (2, 10%nat, 63)]); (37, [(1, 8%nat, 34)]); (41, [(1, 8%nat, 10); (2, 11%nat, 367)]);
    (43, [(1, 8%nat, 41); (2, 11%nat, 199)]); (47, [(1, 8%nat, 21)]); (53, [(1, 8%nat, 44)]);
    (59, [(1, 8%nat, 20)]); (61, [(1, 8%nat, 12); (2, 12%nat, 375)]); (67, [(1, 8%nat, 55)]);
    (71, [(1, 8%nat, 43); (2, 16%nat, 3)]); (73, [(1, 8%nat, 37); (2, 14%nat, 397)]);
    (79, [(1, 8%nat, 19); (2, 17%nat, 11)]); (83, [(1, 8%nat, 7); (2, 17%nat, 181)]);
    (89, [(1, 8%nat, 78); (2, 13%nat, 271)]); (97, [(1, 8%nat, 62)]); (101, [(1, 8%nat, 54)]);
    (103, [(1, 8%nat, 50)]); (107, [(1, 8%nat, 42)]); (109, [(1, 8%nat, 38); (2, 17%nat, 381)]);
    (113, [(1, 8%nat, 30)]); (127, [(1, 8%nat, 2); (2, 14%nat, 255)]); (131, [(1, 8%nat, 125)]);
    (137, [(1, 8%nat, 119)]); (139, [(1, 8%nat, 117)]); (149, [(1, 8%nat, 107)]); (151, [(1, 8%nat, 105)]);
    (157, [(1, 8%nat, 99)]); (163, [(1, 8%nat, 93)]); (167, [(1, 8%nat, 89)]); (173, [(1, 8%nat, 83)]);
    (179, [(1, 8%nat, 77)]); (181, [(1, 8%nat, 75); (2, 15%nat, 7)]); (191, [(1, 8%nat, 65)]);
    (193, [(1, 8%nat, 63)]); (197, [(1, 8%nat, 59)]); (199, [(1, 8%nat, 57)]); (211, [(1, 8%nat, 45)]);
    (223, [(1, 8%nat, 33)]); (227, [(1, 8%nat, 29)]); (229, [(1, 8%nat, 27)]); (233, [(1, 8%nat, 23)]);
    (239, [(1, 8%nat, 17)]); (241, [(1, 8%nat, 15)]); (251, [(1, 8%nat, 5)]); (257, [(1, 9%nat, 255)]);
    (263, [(1, 9%nat, 249)]); (269, [(1, 9%nat, 243)]); (271, [(1, 9%nat, 241)]); (277, [(1, 9%nat, 235)]);
    (281, [(1, 9%nat, 231)]); (283, [(1, 9%nat, 229)]); (293, [(1, 9%nat, 219)]); (307, [(1, 9%nat, 205)]);
    (311, [(1, 9%nat, 201)]); (313, [(1, 9%nat, 199)]); (317, [(1, 9%nat, 195)]); (331, [(1, 9%nat, 181)]);
    (337, [(1, 9%nat, 175)]); (347, [(1, 9%nat, 165)]); (349, [(1, 9%nat, 163)]); (353, [(1, 9%nat, 159)]);
    (359, [(1, 9%nat, 153)]); (367, [(1, 9%nat, 145)]); (373, [(1, 9%nat, 139)]); (379, [(1, 9%nat, 133)]);
    (383, [(1, 9%nat, 129)]); (389, [(1, 9%nat, 123)]); (397, [(1, 9%nat, 115)]); (401, [(1, 9%nat, 111)]);
    (409, [(1, 9%nat, 103)]); (419, [(1, 9%nat, 93)]); (421, [(1, 9%nat, 91)]); (431, [(1, 9%nat, 81)]);
    (433, [(1, 9%nat, 79)]); (439, [(1, 9%nat, 73)]); (443, [(1, 9%nat, 69)]); (449, [(1, 9%nat, 63)]);
    (457, [(1, 9%nat, 55)]); (461, [(1, 9%nat, 51)]); (463, [(1, 9%nat, 49)]); (467, [(1, 9%nat, 45)]);
    (479, [(1, 9%nat, 33)]); (487, [(1, 9%nat, 25)]); (491, [(1, 9%nat, 21)]); (499, [(1, 9%nat, 13)]);
    (503, [(1, 9%nat, 9)]); (509, [(1, 9%nat, 3)]); (521, [(1, 11%nat, 485)]); (523, [(1, 11%nat, 479)]);
    (541, [(1, 10%nat, 483)]); (547, [(1, 10%nat, 477)]); (557, [(1, 10%nat, 467)]); (563, [(1, 10%nat, 461)]);
    (569, [(1, 10%nat, 455)]); (571, [(1, 10%nat, 453)]); (577, [(1, 10%nat, 447)]); (587, [(1, 10%nat, 437)]);
    (593, [(1, 10%nat, 431)]); (599, [(1, 10%nat, 425)]); (601, [(1, 10%nat, 423)]); (607, [(1, 10%nat, 417)]);
    (613, [(1, 10%nat, 411)]); (617, [(1, 10%nat, 407)]); (619, [(1, 10%nat, 405)]); (631, [(1, 10%nat, 393)]);
    (641, [(1, 10%nat, 383)]); (643, [(1, 10%nat, 381)]); (647, [(1, 10%nat, 377)]); (653, [(1, 10%nat, 371)]);
    (659, [(1, 10%nat, 365)]); (661, [(1, 10%nat, 363)]); (673, [(1, 10%nat, 351)]); (677, [(1, 10%nat, 347)]);
    (683, [(1, 10%nat, 341)]); (691, [(1, 10%nat, 333)]); (701, [(1, 10%nat, 323)]); (709, [(1, 10%nat, 315)]);
    (719, [(1, 10%nat, 305)]); (727, [(1, 10%nat, 297)]); (733, [(1, 10%nat, 291)]); (739, [(1, 10%nat, 285)]);
    (743, [(1, 10%nat, 281)]); (751, [(1, 10%nat, 273)]); (757, [(1, 10%nat, 267)]); (761, [(1, 10%nat, 263)]);
    (769, [(1, 10%nat, 255)]); (773, [(1, 10%nat, 251)]); (787, [(1, 10%nat, 237)]); (797, [(1, 10%nat, 227)]);
    (809, [(1, 10%nat, 215)]); (811, [(1, 10%nat, 213)]); (821, [(1, 10%nat, 203)]); (823, [(1, 10%nat, 201)]);
    (827, [(1, 10%nat, 197)]); (829, [(1, 10%nat, 195)]); (839, [(1, 10%nat, 185)]); (853, [(1, 10%nat, 171)]);
    (857, [(1, 10%nat, 167)]); (859, [(1, 10%nat, 165)]); (863, [(1, 10%nat, 161)]); (877, [(1, 10%nat, 147)]);
    (881, [(1, 10%nat, 143)]); (883, [(1, 10%nat, 141)]); (887, [(1, 10%nat, 137)]); (907, [(1, 10%nat, 117)]);
    (911, [(1, 10%nat, 113)]); (919, [(1, 10%nat, 105)]); (929, [(1, 10%nat, 95)]); (937, [(1, 10%nat, 87)]);
    (941, [(1, 10%nat, 83)]); (947, [(1, 10%nat, 77)]); (953, [(1, 10%nat, 71)]); (967, [(1, 10%nat, 57)]);
    (971, [(1, 10%nat, 53)]); (977, [(1, 10%nat, 47)]); (983, [(1, 10%nat, 41)]); (991, [(1, 10%nat, 33)]);
    (997, [(1, 10%nat, 27)]); (1009, [(1, 10%nat, 15)]); (1013, [(1, 10%nat, 11)]); (1019, [(1, 10%nat, 5)]);
    (1021, [(1, 10%nat, 3)]); (1031, [(1, 17%nat, 135)]); (1033, [(1, 16%nat, 457)]); (1039, [(1, 16%nat, 79)]);
    (1049, [(1, 15%nat, 249)]); (1051, [(1, 15%nat, 187)]); (1061, [(1, 14%nat, 469)]); (1063, [(1, 14%nat, 439)]);
    (1069, [(1, 14%nat, 349)]); (1087, [(1, 14%nat, 79)]); (1091, [(1, 14%nat, 19)]); (1103, [(1, 13%nat, 471)]);
    (1109, [(1, 13%nat, 429)]); (1117, [(1, 13%nat, 373)]); (1123, [(1, 13%nat, 331)]); (1129, [(1, 13%nat, 289)]);
    (1151, [(1, 13%nat, 135)]); (1153, [(1, 13%nat, 121)]); (1163, [(1, 13%nat, 51)]); (1187, [(1, 16%nat, 251)]);
    (1201, [(1, 12%nat, 493)]); (1213, [(1, 12%nat, 457)]); (1217, [(1, 12%nat, 445)]); (1223, [(1, 12%nat, 427)]);
    (1229, [(1, 12%nat, 409)]); (1231, [(1, 12%nat, 403)]); (1237, [(1, 12%nat, 385)]); (1249, [(1, 12%nat, 349)]);
    (1259, [(1, 12%nat, 319)]); (1277, [(1, 12%nat, 265)]); (1279, [(1, 12%nat, 259)]); (1283, [(1, 12%nat, 247)]);
    (1289, [(1, 12%nat, 229)]); (1291, [(1, 12%nat, 223)]); (1297, [(1, 12%nat, 205)]); (1301, [(1, 12%nat, 193)]);
    (1303, [(1, 12%nat, 187)]); (1307, [(1, 12%nat, 175)]); (1319, [(1, 12%nat, 139)]); (1321, [(1, 12%nat, 133)]);
    (1327, [(1, 12%nat, 115)]); (1361, [(1, 12%nat, 13)]); (1409, [(1, 15%nat, 361)]); (1423, [(1, 15%nat, 39)]);
    (1439, [(1, 17%nat, 123)]); (1447, [(1, 14%nat, 467)]); (1451, [(1, 14%nat, 423)]); (1453, [(1, 14%nat, 401)]);
    (1459, [(1, 14%nat, 335)]); (1471, [(1, 14%nat, 203)]); (1481, [(1, 14%nat, 93)]); (1483, [(1, 14%nat, 71)]);
    (1487, [(1, 14%nat, 27)]); (1489, [(1, 14%nat, 5)]); (1523, [(1, 16%nat, 47)]); (1531, [(1, 18%nat, 343)]);
    (1543, [(1, 13%nat, 477)]); (1549, [(1, 11%nat, 499)]); (1553, [(1, 11%nat, 495)]); (1559, [(1, 11%nat, 489)]);
    (1567, [(1, 11%nat, 481)]); (1571, [(1, 11%nat, 477)]); (1579, [(1, 11%nat, 469)]); (1583, [(1, 11%nat, 465)]);
    (1597, [(1, 11%nat, 451)]); (1601, [(1, 11%nat, 447)]); (1607, [(1, 11%nat, 441)]); (1609, [(1, 11%nat, 439)]);
    (1613, [(1, 11%nat, 435)]); (1619, [(1, 11%nat, 429)]); (1621, [(1, 11%nat, 427)]); (1627, [(1, 11%nat, 421)]);
    (1637, [(1, 11%nat, 411)]); (1657, [(1, 11%nat, 391)]); (1663, [(1, 11%nat, 385)]); (1667, [(1, 11%nat, 381)]);
    (1669, [(1, 11%nat, 379)]); (1693, [(1, 11%nat, 355)]); (1697, [(1, 11%nat, 351)]); (1699, [(1, 11%nat, 349)]);
    (1709, [(1, 11%nat, 339)]); (1721, [(1, 11%nat, 327)]); (1723, [(1, 11%nat, 325)]); (1733, [(1, 11%nat, 315)]);
    (1741, [(1, 11%nat, 307)]); (1747, [(1, 11%nat, 301)]); (1753, [(1, 11%nat, 295)]); (1759, [(1, 11%nat, 289)]);
    (1777, [(1, 11%nat, 271)]); (1783, [(1, 11%nat, 265)]); (1787, [(1, 11%nat, 261)]); (1789, [(1, 11%nat, 259)]);
    (1801, [(1, 11%nat, 247)]); (1811, [(1, 11%nat, 237)]); (1823, [(1, 11%nat, 225)]); (1831, [(1, 11%nat, 217)]);
    (1847, [(1, 11%nat, 201)]); (1861, [(1, 11%nat, 187)]); (1867, [(1, 11%nat, 181)]); (1871, [(1, 11%nat, 177)]);
    (1873, [(1, 11%nat, 175)]); (1877, [(1, 11%nat, 171)]); (1879, [(1, 11%nat, 169)]); (1889, [(1, 11%nat, 159)]);
    (1901, [(1, 11%nat, 147)]); (1907, [(1, 11%nat, 141)]); (1913, [(1, 11%nat, 135)]); (1931, [(1, 11%nat, 117)]);
    (1933, [(1, 11%nat, 115)]); (1949, [(1, 11%nat, 99)]); (1951, [(1, 11%nat, 97)]); (1973, [(1, 11%nat, 75)]);
    (1979, [(1, 11%nat, 69)]); (1987, [(1, 11%nat, 61)]); (1993, [(1, 11%nat, 55)]); (1997, [(1, 11%nat, 51)]);
    (1999, [(1, 11%nat, 49)]); (2003, [(1, 11%nat, 45)]); (2011, [(1, 11%nat, 37)]); (2017, [(1, 11%nat, 31)]);
    (2027, [(1, 11%nat, 21)]); (2029, [(1, 11%nat, 19)]); (2039, [(1, 11%nat, 9)]); (2063, [(1, 18%nat, 143)]);
    (2099, [(1, 16%nat, 467)]); (2111, [(1, 16%nat, 95)]); (2113, [(1, 16%nat, 33)]); (2129, [(1, 18%nat, 277)]);
    (2131, [(1, 18%nat, 31)]); (2141, [(1, 17%nat, 471)]); (2143, [(1, 17%nat, 349)]); (2153, [(1, 15%nat, 473)]);
    (2161, [(1, 15%nat, 353)]); (2179, [(1, 15%nat, 83)]); (2221, [(1, 17%nat, 33)]); (2237, [(1, 18%nat, 415)]);
    (2239, [(1, 18%nat, 181)]); (2243, [(1, 16%nat, 489)]); (2251, [(1, 16%nat, 257)]); (2273, [(1, 14%nat, 473)]);
    (2281, [(1, 14%nat, 417)]); (2287, [(1, 14%nat, 375)]); (2293, [(1, 14%nat, 333)]); (2297, [(1, 14%nat, 305)]);
    (2309, [(1, 14%nat, 221)]); (2311, [(1, 14%nat, 207)]); (2333, [(1, 14%nat, 53)]); (2339, [(1, 14%nat, 11)]);
    (2377, [(1, 17%nat, 337)]); (2381, [(1, 17%nat, 117)]); (2383, [(1, 17%nat, 7)]); (2411, [(1, 16%nat, 439)]);
    (2417, [(1, 16%nat, 277)]); (2423, [(1, 16%nat, 115)]); (2447, [(1, 18%nat, 315)]); (2467, [(1, 17%nat, 321)]);
    (2473, [(1, 17%nat, 3)]); (2503, [(1, 15%nat, 229)]); (2543, [(1, 18%nat, 215)]); (2579, [(1, 13%nat, 455)]);
    (2591, [(1, 13%nat, 419)]); (2593, [(1, 13%nat, 413)]); (2609, [(1, 13%nat, 365)]); (2617, [(1, 13%nat, 341)]);
    (2621, [(1, 13%nat, 329)]); (2633, [(1, 13%nat, 293)]); (2647, [(1, 13%nat, 251)]); (2657, [(1, 13%nat, 221)]);
    (2659, [(1, 13%nat, 215)]); (2663, [(1, 13%nat, 203)]); (2671, [(1, 13%nat, 179)]); (2677, [(1, 13%nat, 161)]);
    (2683, [(1, 13%nat, 143)]); (2687, [(1, 13%nat, 131)]); (2689, [(1, 13%nat, 125)]); (2693, [(1, 13%nat, 113)]);
    (2699, [(1, 13%nat, 95)]); (2707, [(1, 13%nat, 71)]); (2711, [(1, 13%nat, 59)]); (2713, [(1, 13%nat, 53)]);
    (2719, [(1, 13%nat, 35)]); (2729, [(1, 13%nat, 5)]); (2833, [(1, 16%nat, 377)]); (2837, [(1, 16%nat, 285)]);
    (2843, [(1, 16%nat, 147)]); (2879, [(1, 18%nat, 155)]); (2903, [(1, 17%nat, 437)]); (2909, [(1, 17%nat, 167)]);
    (2939, [(1, 15%nat, 439)]); (2953, [(1, 15%nat, 285)]); (2957, [(1, 15%nat, 241)]); (2963, [(1, 15%nat, 175)]);
    (2969, [(1, 15%nat, 109)]); (2971, [(1, 15%nat, 87)]); (3011, [(1, 18%nat, 187)]); (3037, [(1, 17%nat, 481)]);
    (3041, [(1, 17%nat, 309)]); (3079, [(1, 18%nat, 429)]); (3083, [(1, 18%nat, 89)]); (3109, [(1, 16%nat, 247)]);
    (3119, [(1, 16%nat, 37)]); (3181, [(1, 14%nat, 479)]); (3187, [(1, 14%nat, 449)]); (3191, [(1, 14%nat, 429)]);
    (3203, [(1, 14%nat, 369)]); (3209, [(1, 14%nat, 339)]); (3217, [(1, 14%nat, 299)]); (3221, [(1, 14%nat, 279)]);
    (3229, [(1, 14%nat, 239)]); (3251, [(1, 14%nat, 129)]); (3253, [(1, 14%nat, 119)]); (3257, [(1, 14%nat, 99)]);
    (3259, [(1, 14%nat, 89)]); (3271, [(1, 14%nat, 29)]); (3313, [(1, 18%nat, 417)]); (3359, [(1, 17%nat, 71)]);
    (3433, [(1, 16%nat, 309)]); (3449, [(1, 16%nat, 5)]); (3491, [(1, 18%nat, 319)]); (3529, [(1, 17%nat, 499)]);
    (3533, [(1, 17%nat, 351)]); (3539, [(1, 17%nat, 129)]); (3541, [(1, 17%nat, 55)]); (3593, [(1, 15%nat, 431)]);
    (3607, [(1, 12%nat, 489)]); (3613, [(1, 12%nat, 483)]); (3617, [(1, 12%nat, 479)]); (3623, [(1, 12%nat, 473)]);
    (3631, [(1, 12%nat, 465)]); (3637, [(1, 12%nat, 459)]); (3643, [(1, 12%nat, 453)]); (3659, [(1, 12%nat, 437)]);
    (3671, [(1, 12%nat, 425)]); (3673, [(1, 12%nat, 423)]); (3677, [(1, 12%nat, 419)]); (3691, [(1, 12%nat, 405)]);
    (3697, [(1, 12%nat, 399)]); (3701, [(1, 12%nat, 395)]); (3709, [(1, 12%nat, 387)]); (3719, [(1, 12%nat, 377)]);
    (3727, [(1, 12%nat, 369)]); (3733, [(1, 12%nat, 363)]); (3739, [(1, 12%nat, 357)]); (3761, [(1, 12%nat, 335)]);
    (3767, [(1, 12%nat, 329)]); (3769, [(1, 12%nat, 327)]); (3779, [(1, 12%nat, 317)]); (3793, [(1, 12%nat, 303)]);
    (3797, [(1, 12%nat, 299)]); (3803, [(1, 12%nat, 293)]); (3821, [(1, 12%nat, 275)]); (3823, [(1, 12%nat, 273)]);
    (3833, [(1, 12%nat, 263)]); (3847, [(1, 12%nat, 249)]); (3851, [(1, 12%nat, 245)]); (3853, [(1, 12%nat, 243)]);
    (3863, [(1, 12%nat, 233)]); (3877, [(1, 12%nat, 219)]); (3881, [(1, 12%nat, 215)]); (3889, [(1, 12%nat, 207)]);
    (3907, [(1, 12%nat, 189)]); (3911, [(1, 12%nat, 185)]); (3917, [(1, 12%nat, 179)]); (3919, [(1, 12%nat, 177)]);
    (3923, [(1, 12%nat, 173)]); (3929, [(1, 12%nat, 167)]); (3931, [(1, 12%nat, 165)]); (3943, [(1, 12%nat, 153)]);
    (3947, [(1, 12%nat, 149)]); (3967, [(1, 12%nat, 129)]); (3989, [(1, 12%nat, 107)]); (4001, [(1, 12%nat, 95)]);
    (4003, [(1, 12%nat, 93)]); (4007, [(1, 12%nat, 89)]); (4013, [(1, 12%nat, 83)]); (4019, [(1, 12%nat, 77)]);
    (4021, [(1, 12%nat, 75)]); (4027, [(1, 12%nat, 69)]); (4049, [(1, 12%nat, 47)]); (4051, [(1, 12%nat, 45)]);
    (4057, [(1, 12%nat, 39)]); (4073, [(1, 12%nat, 23)]); (4079, [(1, 12%nat, 17)]); (4091, [(1, 12%nat, 5)]);
    (4093, [(1, 12%nat, 3)]); (4157, [(1, 18%nat, 253)]); (4159, [(1, 18%nat, 127)]); (4217, [(1, 17%nat, 345)]);
    (4219, [(1, 17%nat, 283)]); (4297, [(1, 18%nat, 27)]); (4337, [(1, 16%nat, 481)]); (4339, [(1, 16%nat, 451)]);
    (4349, [(1, 16%nat, 301)]); (4357, [(1, 16%nat, 181)]); (4363, [(1, 16%nat, 91)]); (4441, [(1, 18%nat, 125)]);
    (4507, [(1, 17%nat, 369)]); (4513, [(1, 17%nat, 195)]); (4517, [(1, 17%nat, 79)]); (4519, [(1, 17%nat, 21)]);
    (4591, [(1, 18%nat, 457)]); (4597, [(1, 18%nat, 115)]); (4621, [(1, 15%nat, 421)]); (4637, [(1, 15%nat, 309)]);
    (4639, [(1, 15%nat, 295)]); (4643, [(1, 15%nat, 267)]); (4649, [(1, 15%nat, 225)]); (4651, [(1, 15%nat, 211)]);
    (4657, [(1, 15%nat, 169)]); (4663, [(1, 15%nat, 127)]); (4673, [(1, 15%nat, 57)]); (4679, [(1, 15%nat, 15)]);
    (4759, [(1, 18%nat, 399)]); (4937, [(1, 18%nat, 483)]); (4943, [(1, 18%nat, 165)]); (5003, [(1, 16%nat, 497)]);
    (5009, [(1, 16%nat, 419)]); (5011, [(1, 16%nat, 393)]); (5021, [(1, 16%nat, 263)]); (5023, [(1, 16%nat, 237)]);
    (5039, [(1, 16%nat, 29)]); (5227, [(1, 17%nat, 397)]); (5231, [(1, 17%nat, 297)]); (5233, [(1, 17%nat, 247)]);
    (5237, [(1, 17%nat, 147)]); (5297, [(1, 14%nat, 493)]); (5303, [(1, 14%nat, 475)]); (5309, [(1, 14%nat, 457)]);
    (5323, [(1, 14%nat, 415)]); (5333, [(1, 14%nat, 385)]); (5347, [(1, 14%nat, 343)]); (5351, [(1, 14%nat, 331)]);
    (5381, [(1, 14%nat, 241)]); (5387, [(1, 14%nat, 223)]); (5393, [(1, 14%nat, 205)]); (5399, [(1, 14%nat, 187)]);
    (5407, [(1, 14%nat, 163)]); (5413, [(1, 14%nat, 145)]); (5417, [(1, 14%nat, 133)]); (5419, [(1, 14%nat, 127)]);
    (5431, [(1, 14%nat, 91)]); (5437, [(1, 14%nat, 73)]); (5441, [(1, 14%nat, 61)]); (5443, [(1, 14%nat, 55)]);
    (5449, [(1, 14%nat, 37)]); (5569, [(1, 18%nat, 401)]); (5573, [(1, 18%nat, 213)]); (5683, [(1, 17%nat, 363)]);
    (5689, [(1, 17%nat, 225)]); (5693, [(1, 17%nat, 133)]); (5821, [(1, 18%nat, 199)]); (5923, [(1, 16%nat, 383)]);
    (5927, [(1, 16%nat, 339)]); (5939, [(1, 16%nat, 207)]); (5953, [(1, 16%nat, 53)]); (6089, [(1, 18%nat, 317)]);
    (6091, [(1, 18%nat, 231)]); (6221, [(1, 17%nat, 431)]); (6229, [(1, 17%nat, 263)]); (6389, [(1, 18%nat, 195)]);
    (6469, [(1, 15%nat, 423)]); (6473, [(1, 15%nat, 403)]); (6481, [(1, 15%nat, 363)]); (6491, [(1, 15%nat, 313)]);
    (6521, [(1, 15%nat, 163)]); (6529, [(1, 15%nat, 123)]); (6547, [(1, 15%nat, 33)]); (6551, [(1, 15%nat, 13)]);
    (6553, [(1, 15%nat, 3)]); (6709, [(1, 18%nat, 493)]); (6719, [(1, 18%nat, 103)]); (6883, [(1, 17%nat, 295)]);
    (7079, [(1, 18%nat, 221)]); (7229, [(1, 16%nat, 475)]); (7237, [(1, 16%nat, 403)]); (7243, [(1, 16%nat, 349)]);
    (7247, [(1, 16%nat, 313)]); (7253, [(1, 16%nat, 259)]); (7477, [(1, 18%nat, 449)]); (7481, [(1, 18%nat, 309)]);
    (7487, [(1, 18%nat, 99)]); (7489, [(1, 18%nat, 29)]); (7681, [(1, 17%nat, 495)]); (7687, [(1, 17%nat, 393)]);
    (7691, [(1, 17%nat, 325)]); (7699, [(1, 13%nat, 493)]); (7703, [(1, 13%nat, 489)]); (7717, [(1, 13%nat, 475)]);
    (7723, [(1, 13%nat, 469)]); (7727, [(1, 13%nat, 465)]); (7741, [(1, 13%nat, 451)]); (7753, [(1, 13%nat, 439)]);
    (7757, [(1, 13%nat, 435)]); (7759, [(1, 13%nat, 433)]); (7789, [(1, 13%nat, 403)]); (7793, [(1, 13%nat, 399)]);
    (7817, [(1, 13%nat, 375)]); (7823, [(1, 13%nat, 369)]); (7829, [(1, 13%nat, 363)]); (7841, [(1, 13%nat, 351)]);
    (7853, [(1, 13%nat, 339)]); (7867, [(1, 13%nat, 325)]); (7873, [(1, 13%nat, 319)]); (7877, [(1, 13%nat, 315)]);
    (7879, [(1, 13%nat, 313)]); (7883, [(1, 13%nat, 309)]); (7901, [(1, 13%nat, 291)]); (7907, [(1, 13%nat, 285)]);
    (7919, [(1, 13%nat, 273)]); (7927, [(1, 13%nat, 265)]); (7933, [(1, 13%nat, 259)]); (7937, [(1, 13%nat, 255)]);
    (7949, [(1, 13%nat, 243)]); (7951, [(1, 13%nat, 241)]); (7963, [(1, 13%nat, 229)]); (7993, [(1, 13%nat, 199)]);
    (8009, [(1, 13%nat, 183)]); (8011, [(1, 13%nat, 181)]); (8017, [(1, 13%nat, 175)]); (8039, [(1, 13%nat, 153)]);
    (8053, [(1, 13%nat, 139)]); (8059, [(1, 13%nat, 133)]); (8069, [(1, 13%nat, 123)]); (8081, [(1, 13%nat, 111)]);
    (8087, [(1, 13%nat, 105)]); (8089, [(1, 13%nat, 103)]); (8093, [(1, 13%nat, 99)]); (8101, [(1, 13%nat, 91)]);
    (8111, [(1, 13%nat, 81)]); (8117, [(1, 13%nat, 75)]); (8123, [(1, 13%nat, 69)]); (8147, [(1, 13%nat, 45)]);
    (8161, [(1, 13%nat, 31)]); (8167, [(1, 13%nat, 25)]); (8171, [(1, 13%nat, 21)]); (8179, [(1, 13%nat, 13)]);
    (8191, [(1, 13%nat, 1)]); (8443, [(1, 18%nat, 411)]); (8447, [(1, 18%nat, 287)]); (8707, [(1, 17%nat, 467)]);
    (8713, [(1, 17%nat, 377)]); (8719, [(1, 17%nat, 287)]); (8731, [(1, 17%nat, 107)]); (8737, [(1, 17%nat, 17)]);
    (9029, [(1, 18%nat, 303)]); (9293, [(1, 16%nat, 485)]); (9311, [(1, 16%nat, 359)]); (9319, [(1, 16%nat, 303)]);
    (9323, [(1, 16%nat, 275)]); (9337, [(1, 16%nat, 177)]); (9341, [(1, 16%nat, 149)]); (9343, [(1, 16%nat, 135)]);
    (9349, [(1, 16%nat, 93)]); (9697, [(1, 18%nat, 325)]); (10061, [(1, 17%nat, 279)]);
    (10067, [(1, 17%nat, 201)]); (10069, [(1, 17%nat, 175)]); (10079, [(1, 17%nat, 45)]);
    (10477, [(1, 18%nat, 219)]); (10771, [(1, 15%nat, 455)]); (10781, [(1, 15%nat, 425)]);
    (10789, [(1, 15%nat, 401)]); (10799, [(1, 15%nat, 371)]); (10831, [(1, 15%nat, 275)]);
    (10837, [(1, 15%nat, 257)]); (10847, [(1, 15%nat, 227)]); (10853, [(1, 15%nat, 209)]);
    (10859, [(1, 15%nat, 191)]); (10861, [(1, 15%nat, 185)]); (10867, [(1, 15%nat, 167)]);
    (10883, [(1, 15%nat, 119)]); (10889, [(1, 15%nat, 101)]); (10891, [(1, 15%nat, 95)]);
    (10903, [(1, 15%nat, 59)]); (10909, [(1, 15%nat, 41)]); (11383, [(1, 18%nat, 335)]);
    (11393, [(1, 18%nat, 105)]); (11887, [(1, 17%nat, 315)]); (11897, [(1, 17%nat, 205)]);
    (11903, [(1, 17%nat, 139)]); (11909, [(1, 17%nat, 73)]); (12473, [(1, 18%nat, 211)]);
    (12479, [(1, 18%nat, 85)]); (13009, [(1, 16%nat, 491)]); (13033, [(1, 16%nat, 371)]);
    (13037, [(1, 16%nat, 351)]); (13043, [(1, 16%nat, 321)]); (13049, [(1, 16%nat, 291)]);
    (13063, [(1, 16%nat, 221)]); (13093, [(1, 16%nat, 71)]); (13099, [(1, 16%nat, 41)]);
    (13103, [(1, 16%nat, 21)]); (13781, [(1, 18%nat, 305)]); (13789, [(1, 18%nat, 153)]);
    (14519, [(1, 17%nat, 401)]); (14533, [(1, 17%nat, 275)]); (14537, [(1, 17%nat, 239)]);
    (14543, [(1, 17%nat, 185)]); (14549, [(1, 17%nat, 131)]); (14551, [(1, 17%nat, 113)]);
    (14557, [(1, 17%nat, 59)]); (14561, [(1, 17%nat, 23)]); (14563, [(1, 17%nat, 5)]); (15391, [(1, 18%nat, 497)]);
    (15401, [(1, 18%nat, 327)]); (15413, [(1, 18%nat, 123)]); (15887, [(1, 14%nat, 497)]);
    (15889, [(1, 14%nat, 495)]); (15901, [(1, 14%nat, 483)]); (15907, [(1, 14%nat, 477)]);
    (15913, [(1, 14%nat, 471)]); (15919, [(1, 14%nat, 465)]); (15923, [(1, 14%nat, 461)]);
    (15937, [(1, 14%nat, 447)]); (15959, [(1, 14%nat, 425)]); (15971, [(1, 14%nat, 413)]);
    (15973, [(1, 14%nat, 411)]); (15991, [(1, 14%nat, 393)]); (16001, [(1, 14%nat, 383)]);
    (16007, [(1, 14%nat, 377)]); (16033, [(1, 14%nat, 351)]); (16057, [(1, 14%nat, 327)]);
    (16061, [(1, 14%nat, 323)]); (16063, [(1, 14%nat, 321)]); (16067, [(1, 14%nat, 317)]);
    (16069, [(1, 14%nat, 315)]); (16073, [(1, 14%nat, 311)]); (16087, [(1, 14%nat, 297)]);
    (16091, [(1, 14%nat, 293)]); (16097, [(1, 14%nat, 287)]); (16103, [(1, 14%nat, 281)]);
    (16111, [(1, 14%nat, 273)]); (16127, [(1, 14%nat, 257)]); (16139, [(1, 14%nat, 245)]);
    (16141, [(1, 14%nat, 243)]); (16183, [(1, 14%nat, 201)]); (16187, [(1, 14%nat, 197)]);
    (16189, [(1, 14%nat, 195)]); (16193, [(1, 14%nat, 191)]); (16217, [(1, 14%nat, 167)]);
    (16223, [(1, 14%nat, 161)]); (16229, [(1, 14%nat, 155)]); (16231, [(1, 14%nat, 153)]);
    (16249, [(1, 14%nat, 135)]); (16253, [(1, 14%nat, 131)]); (16267, [(1, 14%nat, 117)]);
    (16273, [(1, 14%nat, 111)]); (16301, [(1, 14%nat, 83)]); (16319, [(1, 14%nat, 65)]);
    (16333, [(1, 14%nat, 51)]); (16339, [(1, 14%nat, 45)]); (16349, [(1, 14%nat, 35)]); (16361, [(1, 14%nat, 23)]);
    (16363, [(1, 14%nat, 21)]); (16369, [(1, 14%nat, 15)]); (16381, [(1, 14%nat, 3)]); (17443, [(1, 18%nat, 499)]);
    (17449, [(1, 18%nat, 409)]); (17467, [(1, 18%nat, 139)]); (17471, [(1, 18%nat, 79)]);
    (18661, [(1, 17%nat, 445)]); (18671, [(1, 17%nat, 375)]); (18679, [(1, 17%nat, 319)]);
    (18691, [(1, 17%nat, 235)]); (18701, [(1, 17%nat, 165)]); (18713, [(1, 17%nat, 81)]);
    (18719, [(1, 17%nat, 39)]); (20129, [(1, 18%nat, 467)]); (20143, [(1, 18%nat, 285)]);
    (20147, [(1, 18%nat, 233)]); (20149, [(1, 18%nat, 207)]); (20161, [(1, 18%nat, 51)]);
    (21683, [(1, 16%nat, 487)]); (21701, [(1, 16%nat, 433)]); (21713, [(1, 16%nat, 397)]);
    (21727, [(1, 16%nat, 355)]); (21737, [(1, 16%nat, 325)]); (21739, [(1, 16%nat, 319)]);
    (21751, [(1, 16%nat, 283)]); (21757, [(1, 16%nat, 265)]); (21767, [(1, 16%nat, 235)]);
    (21773, [(1, 16%nat, 217)]); (21787, [(1, 16%nat, 175)]); (21799, [(1, 16%nat, 139)]);
    (21803, [(1, 16%nat, 127)]); (21817, [(1, 16%nat, 85)]); (21821, [(1, 16%nat, 73)]);
    (21839, [(1, 16%nat, 19)]); (21841, [(1, 16%nat, 13)]); (23789, [(1, 18%nat, 465)]);
    (23801, [(1, 18%nat, 333)]); (23813, [(1, 18%nat, 201)]); (23819, [(1, 18%nat, 135)]);
    (23827, [(1, 18%nat, 47)]); (23831, [(1, 18%nat, 3)]); (26119, [(1, 17%nat, 477)]);
    (26141, [(1, 17%nat, 367)]); (26153, [(1, 17%nat, 307)]); (26161, [(1, 17%nat, 267)]);
    (26171, [(1, 17%nat, 217)]); (26177, [(1, 17%nat, 187)]); (26183, [(1, 17%nat, 157)]);
    (26189, [(1, 17%nat, 127)]); (26203, [(1, 17%nat, 57)]); (26209, [(1, 17%nat, 27)]);
    (29077, [(1, 18%nat, 451)]); (29101, [(1, 18%nat, 235)]); (29123, [(1, 18%nat, 37)]);
    (32297, [(1, 15%nat, 471)]); (32299, [(1, 15%nat, 469)]); (32303, [(1, 15%nat, 465)]);
    (32309, [(1, 15%nat, 459)]); (32321, [(1, 15%nat, 447)]); (32323, [(1, 15%nat, 445)]);
    (32327, [(1, 15%nat, 441)]); (32341, [(1, 15%nat, 427)]); (32353, [(1, 15%nat, 415)]);
    (32359, [(1, 15%nat, 409)]); (32363, [(1, 15%nat, 405)]); (32369, [(1, 15%nat, 399)]);
    (32371, [(1, 15%nat, 397)]); (32377, [(1, 15%nat, 391)]); (32381, [(1, 15%nat, 387)]);
    (32401, [(1, 15%nat, 367)]); (32411, [(1, 15%nat, 357)]); (32413, [(1, 15%nat, 355)]);
    (32423, [(1, 15%nat, 345)]); (32429, [(1, 15%nat, 339)]); (32441, [(1, 15%nat, 327)]);
    (32443, [(1, 15%nat, 325)]); (32467, [(1, 15%nat, 301)]); (32479, [(1, 15%nat, 289)]);
    (32491, [(1, 15%nat, 277)]); (32497, [(1, 15%nat, 271)]); (32503, [(1, 15%nat, 265)]);
    (32507, [(1, 15%nat, 261)]); (32531, [(1, 15%nat, 237)]); (32533, [(1, 15%nat, 235)]);
    (32537, [(1, 15%nat, 231)]); (32561, [(1, 15%nat, 207)]); (32563, [(1, 15%nat, 205)]);
    (32569, [(1, 15%nat, 199)]); (32573, [(1, 15%nat, 195)]); (32579, [(1, 15%nat, 189)]);
    (32587, [(1, 15%nat, 181)]); (32603, [(1, 15%nat, 165)]); (32609, [(1, 15%nat, 159)]);
    (32611, [(1, 15%nat, 157)]); (32621, [(1, 15%nat, 147)]); (32633, [(1, 15%nat, 135)]);
    (32647, [(1, 15%nat, 121)]); (32653, [(1, 15%nat, 115)]); (32687, [(1, 15%nat, 81)]);
    (32693, [(1, 15%nat, 75)]); (32707, [(1, 15%nat, 61)]); (32713, [(1, 15%nat, 55)]); (32717, [(1, 15%nat, 51)]);
    (32719, [(1, 15%nat, 49)]); (32749, [(1, 15%nat, 19)]); (37379, [(1, 18%nat, 491)]);
    (37397, [(1, 18%nat, 365)]); (37409, [(1, 18%nat, 281)]); (37423, [(1, 18%nat, 183)]);
    (37441, [(1, 18%nat, 57)]); (37447, [(1, 18%nat, 15)]); (43541, [(1, 17%nat, 449)]);
    (43543, [(1, 17%nat, 443)]); (43573, [(1, 17%nat, 353)]); (43577, [(1, 17%nat, 341)]);
    (43579, [(1, 17%nat, 335)]); (43591, [(1, 17%nat, 299)]); (43597, [(1, 17%nat, 281)]);
    (43607, [(1, 17%nat, 251)]); (43609, [(1, 17%nat, 245)]); (43613, [(1, 17%nat, 233)]);
    (43627, [(1, 17%nat, 191)]); (43633, [(1, 17%nat, 173)]); (43649, [(1, 17%nat, 125)]);
    (43651, [(1, 17%nat, 119)]); (43661, [(1, 17%nat, 89)]); (43669, [(1, 17%nat, 65)]);
    (52361, [(1, 18%nat, 339)]); (52363, [(1, 18%nat, 329)]); (52369, [(1, 18%nat, 299)]);
    (52379, [(1, 18%nat, 249)]); (52387, [(1, 18%nat, 209)]); (52391, [(1, 18%nat, 189)]);
    (65053, [(1, 16%nat, 483)]); (65063, [(1, 16%nat, 473)]); (65071, [(1, 16%nat, 465)]);
    (65089, [(1, 16%nat, 447)]); (65099, [(1, 16%nat, 437)]); (65101, [(1, 16%nat, 435)]);
    (65111, [(1, 16%nat, 425)]); (65119, [(1, 16%nat, 417)]); (65123, [(1, 16%nat, 413)]);
    (65129, [(1, 16%nat, 407)]); (65141, [(1, 16%nat, 395)]); (65147, [(1, 16%nat, 389)]);
    (65167, [(1, 16%nat, 369)]); (65171, [(1, 16%nat, 365)]); (65173, [(1, 16%nat, 363)]);
    (65179, [(1, 16%nat, 357)]); (65183, [(1, 16%nat, 353)]); (65203, [(1, 16%nat, 333)]);
    (65213, [(1, 16%nat, 323)]); (65239, [(1, 16%nat, 297)]); (65257, [(1, 16%nat, 279)]);
    (65267, [(1, 16%nat, 269)]); (65269, [(1, 16%nat, 267)]); (65287, [(1, 16%nat, 249)]);
    (65293, [(1, 16%nat, 243)]); (65309, [(1, 16%nat, 227)]); (65323, [(1, 16%nat, 213)]);
    (65327, [(1, 16%nat, 209)]); (65353, [(1, 16%nat, 183)]); (65357, [(1, 16%nat, 179)]);
    (65371, [(1, 16%nat, 165)]); (65381, [(1, 16%nat, 155)]); (65393, [(1, 16%nat, 143)]);
    (65407, [(1, 16%nat, 129)]); (65413, [(1, 16%nat, 123)]); (65419, [(1, 16%nat, 117)]);
    (65423, [(1, 16%nat, 113)]); (65437, [(1, 16%nat, 99)]); (65447, [(1, 16%nat, 89)]);
    (65449, [(1, 16%nat, 87)]); (65479, [(1, 16%nat, 57)]); (65497, [(1, 16%nat, 39)]); (65519, [(1, 16%nat, 17)]);
    (65521, [(1, 16%nat, 15)]); (87221, [(1, 18%nat, 481)]); (87223, [(1, 18%nat, 475)]);
    (87251, [(1, 18%nat, 391)]); (87253, [(1, 18%nat, 385)]); (87257, [(1, 18%nat, 373)]);
    (87277, [(1, 18%nat, 313)]); (87281, [(1, 18%nat, 301)]); (87293, [(1, 18%nat, 265)]);
    (87299, [(1, 18%nat, 247)]); (87313, [(1, 18%nat, 205)]); (87317, [(1, 18%nat, 193)]);
    (87323, [(1, 18%nat, 175)]); (87337, [(1, 18%nat, 133)]); (87359, [(1, 18%nat, 67)]);
    (130579, [(1, 17%nat, 493)]); (130589, [(1, 17%nat, 483)]); (130619, [(1, 17%nat, 453)]);
    (130621, [(1, 17%nat, 451)]); (130631, [(1, 17%nat, 441)]); (130633, [(1, 17%nat, 439)]);
    (130639, [(1, 17%nat, 433)]); (130643, [(1, 17%nat, 429)]); (130649, [(1, 17%nat, 423)]);
    (130651, [(1, 17%nat, 421)]); (130657, [(1, 17%nat, 415)]); (130681, [(1, 17%nat, 391)]);
    (130687, [(1, 17%nat, 385)]); (130693, [(1, 17%nat, 379)]); (130699, [(1, 17%nat, 373)]);
    (130729, [(1, 17%nat, 343)]); (130769, [(1, 17%nat, 303)]); (130783, [(1, 17%nat, 289)]);
    (130787, [(1, 17%nat, 285)]); (130807, [(1, 17%nat, 265)]); (130811, [(1, 17%nat, 261)]);
    (130817, [(1, 17%nat, 255)]); (130829, [(1, 17%nat, 243)]); (130841, [(1, 17%nat, 231)]);
    (130843, [(1, 17%nat, 229)]); (130859, [(1, 17%nat, 213)]); (130873, [(1, 17%nat, 199)]);
    (130927, [(1, 17%nat, 145)]); (130957, [(1, 17%nat, 115)]); (130969, [(1, 17%nat, 103)]);
    (130973, [(1, 17%nat, 99)]); (130981, [(1, 17%nat, 91)]); (130987, [(1, 17%nat, 85)]);
    (131009, [(1, 17%nat, 63)]); (131011, [(1, 17%nat, 61)]); (131023, [(1, 17%nat, 49)]);
    (131041, [(1, 17%nat, 31)]); (131059, [(1, 17%nat, 13)]); (131063, [(1, 17%nat, 9)]);
    (131071, [(1, 17%nat, 1)]); (261673, [(1, 18%nat, 471)]); (261697, [(1, 18%nat, 447)]);
    (261707, [(1, 18%nat, 437)]); (261713, [(1, 18%nat, 431)]); (261721, [(1, 18%nat, 423)]);
    (261739, [(1, 18%nat, 405)]); (261757, [(1, 18%nat, 387)]); (261761, [(1, 18%nat, 383)]);
    (261773, [(1, 18%nat, 371)]); (261787, [(1, 18%nat, 357)]); (261791, [(1, 18%nat, 353)]);
    (261799, [(1, 18%nat, 345)]); (261823, [(1, 18%nat, 321)]); (261847, [(1, 18%nat, 297)]);
    (261881, [(1, 18%nat, 263)]); (261887, [(1, 18%nat, 257)]); (261917, [(1, 18%nat, 227)]);
    (261959, [(1, 18%nat, 185)]); (261971, [(1, 18%nat, 173)]); (261973, [(1, 18%nat, 171)]);
    (261977, [(1, 18%nat, 167)]); (261983, [(1, 18%nat, 161)]); (262007, [(1, 18%nat, 137)]);
    (262027, [(1, 18%nat, 117)]); (262049, [(1, 18%nat, 95)]); (262051, [(1, 18%nat, 93)]);
    (262069, [(1, 18%nat, 75)]); (262079, [(1, 18%nat, 65)]); (262103, [(1, 18%nat, 41)]);
    (262109, [(1, 18%nat, 35)]); (262111, [(1, 18%nat, 33)]); (262121, [(1, 18%nat, 23)]);
    (262127, [(1, 18%nat, 17)]); (262133, [(1, 18%nat, 11)]); (262139, [(1, 18%nat, 5)])
].

(** The multiples *)
Definition blockers : list N := [
    95780692099127076185288430520535398525525119888694417;
    13803414262343177829873087384634744417587859890838122243456017227322237;
    13803428531889124154395599993962296076810320193113169821486416752968799;
    17575052584848795253347426250949449429488335267011101276393899280436577;
    27605235621579875677496390198101058091338709868990567345002275025093799;
    103415653400249611088622940014831796795153273918284676096392144202748218;
    110164916234968071196381887472982463630511157459553271368968472648365053;
    183814329833937794005172382571745913970417206759286970666871455142586731;
    206815131615161300761969845223168736469752035266624488558664067480287387;
    220814628365853155411023217826187212179371963591927474307952704446707434;
    296425587931559111767877551814887954412526281980095937009118600642104630;
    410690070811674872592563922078690326565266745702225402785423421820774057;
    441706675029053367585288980153453080306822502525048303133113645434359032;
    644079486243347395097236801625357412287867333963820694873945744676014639;
    743621791192701099446295980809631273324743209666582696772231123821109303;
    1358816341296196774527492530445179295696505855744210257458576892066117798;
    1437768782723328385299156196936755963010710062420634807013090933572042307;
    1656632509884947814019059237941883898170720567768671546946379242440124239;
    1752225563136237764510632077554732320819505139293040710914672058400510989;
    1897005584054913504972902719300087461986759318713285494261367945131627245;
    2307642309979861422588933072603557968145643250926570655847309266141222816;
    3148036789321871367268492864351697933450307550428724099532705341016552362;
    3533548327280018729243408574525101354967053799460468064121473764138402462;
    4423128176855214813854243353992984295161611439517983190121551858184904823;
    4537619696790035804947116195025918858622363972883187027094869036698867479;
    6914944426827636749160803138909938675577949583245488834672911037659308601;
    7063177155674641360583194870605755444651074070066216836584240118514495236;
    7067273430041286295213018889589336513279191609502260691665646222027895154;
    7761389017894844790862498712198938691285213991607907590767814694702456650;
    9582845005848076176987715165324181951735877969331101702693515919270521835;
    11370387318613434974430915482731606175588389525255905710719375194433224232;
    17337066309752811613880591541031646486699258268855271672438012136876668481;
    18721647781757440966994307097843010240770990343216177471423507319423141514;
    27813529506934149748106781295947447588339970806128241972998122887124535204;
    28249213249352146327628994330960628122063545451935868407657523438975201616;
    37228205831757728161560511692877890831320211609914026646699651911053278138;
    47790813256398420737195590187339834186032268801091859256506481159452503564;
    56537570901257285735997187102313400367981214649600573134329799395773256573;
    60009433387602872759486376438897618966111946106983866989691408848708612742;
    79298462175371751604161434262608768692910816545281685829707617671752247178;
    84041735624773486865681287480982536354865403892513529195472784888513420703;
    85680441206262142605618736052232349810273700353137661014995578271293871899;
    98166907432799373948769262306755399525075279074980990556432584639928841878;
    111084035315705804990633167667045272555645653890096310160028579536957805615;
    113055566435082223923289245750819092086076057420932718279798040235155780359;
    116971260853851902745771660708428913949647600709502656976296978715811505944;
    134681281228134073511582194685494919096096665473109255950453675791741448592;
    137191184184397233390419662480537010861459104934797930512519620998801618405;
    144171709256662176204304348551513875654372626851220006097377005775500222276;
    148321876110044288930436117064783836836216689983651449640506482900204397940;
    152269353659744733138915587736648691999019586915290778885622624516070098545;
    160556672242375096546052557031301041564090694270468672074088071255051499774;
    187661238734894755666229004272567843247708201004995624887204776175881624010;
    201545001902422401355093924600512480917926474763299101007821871152666771630;
    246674856847872790884310456130828531121846906013396802017256007195266881194;
    248726990727575753192205228674845483361313597646922094147487063958549857825;
    266366540263907240371235334679036066186012559614543564806846852617024491572;
    267023730536320232020736344802768358891821038630736924414466312636404914983;
    303533585087964105475565892620215844846006159716841995881434821290890162660;
    327036154398890439867044378088522417749837124146361122797252540602291271740;
    373882345377434223487658628232483110859872000239386561975227528269824307762;
    393868965905771105121492644328161889702395678734457617445078504570556670405;
    396663670606361635335273983527585765941310412128049016230827917079815067110;
    452265417277389998163807046883906714179811166032126868640002033512856071498;
    522304340664066220835995669841217126200666736385882428729007742671066038630;
    540842764792106584831053923019659470641084492786526207508698428676398104280;
    551988857255276373662651306879136190747519314176044194883735746966506910000;
    594944965514955195876943504384555293031433318770833983660088975456408885828;
    605533874299220335475078772379811504334253222626146690796763775874204254268;
    752964127716712227146020327739891821985843167757096499554913416015579362041;
    762665762323609829768937075967792875371641475899366600794603012174913011950;
    803544211481016370996011951951233973683571872387546006873283439264869855309;
    824238195825342737506402478556555683367523263169416039017285752381641816300;
    886077134020989158128615894137231844039389850841709379263748645720036962618;
    904610752197128956627215265698021776104395622332089522520730473963341293123;
    904620298451051635298674327611663820727938292265801855307454619470924738756;
    909098619124016055358338312222421909975437002294915459946815764392544322544;
    994627073603757119999729636539479376492247405784588101514537593538961347950;
    1042471096817893049180998689245780384717597544880695163040593033125877572450;
    1072089695709726161021089602860376636693237546207772401779828259584129230464;
    1148576014697686944044409906505163649337363928428182688815031201556769068376;
    1306107363500536984934006168255507538979596796630732771482349867364080152750;
    1362334344450563601566324429676898974606816562787192909558035243393631408218;
    1370313563548179972061193135358206066170480297610467567768883250353960877898;
    1403908493887715796433507743351368358421138926681644353318081194231646553568;
    1511390885300351655950922850034457592607858144553627092141036712336217960710;
    1809003655911247866361752656755821102155462361511856925418218644309155390027;
    1809235781212873233880749799675314096547858444801329432651335044854871955422;
    1963393259525756226082329148418536720190464033901282034135165974626026001888;
    2112498439340214420389183011466567016110928504703047053427324243987582043632;
    2209876568479808128919667644503429231562454901390609396456933987464702935116;
    2523953929219636101068397364182921541080587612833857231285228129723555905460;
    2667821788450952713240935144641676805312808425697619400319246819146720472280;
    2685143282778739713423686789535253342512713587713036289325939268151790007360;
    2690902855729112062533482909938617782435761123326621457474584583623520425380;
    2747785102601004506296343255742479245878445006560276448107518312059288104593;
    2847389898590212097219280853353154202187295054718348506495950566779802251602;
    2850766212971152163723954879714388568483966211917547036360480257637941920880;
    3029480794726646921014736849598824071854448656250986472216584905273831199484;
    3237967938422293635430484384730609505237690180344781281598699876540611262291;
    3375085941458017991913160312806828313020661089808569623700241878413681276154;
    3377336919088271903459314771343086684386985499087237419916783860832843923440;
    3497230367808309364171430313476202135338333284354438098149347200297824713968;
    3502829359715934957012347375908275417227577517544482148285597856869665634310;
    3557336720210527021608832679863254302576170406879946420245398762475053019520;
    3563703340716628333695278475991401182221119054730295160517139634505987831010;
    3568561890803396162864074040676602716447350074460538066826890858314255632466;
    3705044492061672322567002300500267227157139924719394348767148166897794896164;
    4074081951635623427849216444890954818299685508052978873963018119521204178560;
    4201781795222104799535195647754411367457562866633917218392306618523768980760;
    4288553101447148874233416848180089926446397293606535726117747871302282378881;
    4452347676046095564072062932243634650463983433653577443254757269409587216185;
    4511448115973140751722358027946912874754317223029930038683547113622028665296;
    4518002119907793996134957776246696266206048987664894910939514765557317103191;
    5270727093598007272366202122205088433069599189350245831362526968352749039602;
    5361181666320830108484469037833019409799730682225210499622931786631808091360;
    5827783858680015263252019402791562603623984397881837461036336575163851666666;
    6562316760011841931542053809223477454897165021580450183799727007770489134911;
    6833071209713612775389378847601591508864032582595248376649403669715473658244;
    6865219750000043445954860404762249287889437871439083575367759993384060514160;
    6942697253945358615537187383708421837582115643461075136188265802220576420087;
    7213572891137823736580479430473592207867062050467724510213116027079038649964;
    7236701461302701876870076280088088815533800805664353187674987207450847493044;
    7703033737638531281374231160883128401160325938406459760913917261803591390120;
    7706347008272719927431763417006283014064868583943355271676061077636155952130;
    7848831014465623708371695571827206799846917426201368436093339116212174756802;
    8007270878501800208634066342326208417751207547716974402856073924405593497961;
    8207881576685459103948071864605571937499515293999900194383272520085129154280;
    8476437143144001435122353660076590858523863763815666984493774495416845957342;
    8911739258447427163164823113265083990306487214196787887240800095431446426430;
    9255587125885510897190583017400513837536744829464294019165365719352628879600;
    9302416106932234261671263547755105558909924874624020066366683365626301114777;
    9617567401267991946063509210424923437527056286036557576721752681973180489325;
    9627528255643012303802698991168322862735495666555834848409053142927107067114;
    9638201490100114349602505511177650325946154744398034249030820440271960560520;
    9646519132807381026934257276105934740011069551831700359733790582830584138765;
    10262220147020539950885377021073163164607886443260340191357411946820968054493;
    10426229875221480331561993269411002330523872998536192238115779412392655166000;
    10915135867070755863078920305326344227528891984002195054750403506561420421420;
    11013881464429301649012448404992881351065722825773327015788560706924353843436;
    11398867335053573349134344569780218361469438809405433820266729862875765013472;
    11565924991794231048898401322191362625001391865243754376283462521233537343070;
    11984248401526197958269644980054402445912046958771850091261183359477987168649;
    13558431891866122410540642688776875512844300093448857943221656184059659099616;
    13695295868052075402601441870832882136085748984007785425644889197834487834800;
    13998460020124438538048317029125093915112203536737831548381656027684722465746;
    14109196837573468374814972586028870469256019155639232866607209823268294787203;
    14532030323535483659538141901204556415664608473342914358731028819464221804339;
    15027788579160245758616405295093182045215963146675655445830037806353724073400;
    15535422343658400131955137297211654992129369971251340070373780448851155512800;
    15594027634546493595120512808286016814926407695513018579308908003811413108008;
    15625912875479501654541108254341020109580978773052666789944165753503071081640;
    16014742856325995126614824603395392084064522925908937824192928671109284539110;
    16138863974226528956988597935578997413306791326935606993892519234100190027320;
    16905982019699627794104594051700503748056579324163893886153102177050849856044;
    17025785045422221364690780610095070728157121454829069983236069806096381894986;
    17172002227013778406181277876525252708938625850768868522568639382289601471675;
    17225267539061337053732145058079630797768523651823313059247370992053464201440;
    17429273086047713665697016351546151355543736275836539705332028568779941490960;
    17487149235052256812899051353116863634550629175849951557107582715707528294926;
    17697766171883879510219660572709800820541666728674994584391246239992495528240;
    18671690494370262910894579598298662411882382051487214658041340902873750031711;
    18919767338265199336052605767812025510330332093533745494584416090379538397244;
    19140291819961264532302592803952173669461688197631488028554056754004606155834;
    19311399518856163775689954532368453859217412874402764536044968240298343599509;
    20384269917556774875145883917107287323223889932881104191256010306688429330832;
    20553689735783254593474957189091275246497240903660042827074223017484593245880;
    20977225863748808750447595607112122551080036471354926419861889198244420222772;
    21191732883059152773852441444829977331420219730080706131551430767269784752550;
    23490722892759653565261755356903462538164423248153391707470692078844670708881;
    23520366174686307003344227815331662115742829087661420720504627332771261482568;
    24741865817900835834361147010091139393133580167137356381095359696792302870720;
    25079555246571433638464350212620657567750184355075190487398370627935449877564;
    25686147837285283988166278121294962860970453007118000970119721036837447801820;
    27618687240632268793607237616956548335667193106568628850646393880194909915320;
    27949424501657037177449788652517270101893595025495290151214501648109094480000;
    28105325090791637774052498993372402432748286115091278252126286622657836375020;
    28211500970420499737230932840065965771957151411187601873863378328293136420719;
    28578347212935047832182336501964373101938128487870445624691654796269617561444;
    28929493057864312131433083509165348515965298554001923903155368519079787936524;
    28947638806326397389358167454020147139017865284993214107910631596281109882681;
    29357627738461579574506697911865267845645793202668408449220152380520923794040;
    29698697842503004373917785505519266820092626924480667637045476200351147541206;
    30314906260935010712390597285590950718363273289386941279016705965789062844000;
    31446123120802073007932691799346560350711144397622818134119834230282443154174;
    31512755934825616191815502890913667617519863300705077473403548145433012733180;
    31684607897477262183268067347135100392434356322685117710205675734950830086523;
    32454210066705322709365623769259082620916513603355999903225732932416345601600;
    32454626545249536640085203828758123379239210457373639752928570862390359920400;
    32917582698157467106158050051845532410025689657069607223938185569267042172326;
    33021799002380150878406304947156630382779941067670457640496778136671844522880;
    33966486203132707720117095788441104983097896758556221590365714536556891552000;
    34531535009712521979592597040896979314077174743884607122624672875867133496082;
    34985164690670130892249711150492356243520457840414035554496531265989657388340;
    35395354858411944026658192010913249862847438313270817577883083578008501166600;
    36057958795858591742899269954688257636767336083239997540254061132118250219280;
    36151812738254199325871058123289174753026414901849861617425127977133045151680;
    37342295310043557866570773102369598516651359647209237797481316155598088961400;
    38076450566489867799586765231089941666342350990570091330710593656323214888848;
    38693779649992797416284047481251565663896129223069631895092299294596774019200;
    39988316632797669892320957314169732727509991374375894357226662140444995267200;
    41396624261266966533340637252921175382189381289387607048115222090144607228840;
    42105283471565256439701827491971118808785894203578612556025715722549158179760;
    42674912155010355846588184360225728536726326620486030697435023741773037480000;
    43237083902173573403573359167166194199040381532589873548609649392166352216904;
    44148582813826667719413445342785881348050424539785381769240309969533879903240;
    45863176424446965974265791363085814704250365663583647472529325677563729058400;
    46149260260067869603003249407181007306383748342597276754695911810712833560960;
    46641968899370694308687873537453938898663053817234672094735216684186100594882;
    47666321471720791892179856227732802640597859272481416407267782083582326291280;
    47889773312478486996090181643724597824602027698074451175512456210973495345200;
    48131436799677022741633452418923305182076736476146162220906667538903732501593;
    48306528001063985372005069415547803036831283704655590058198609795144332902549;
    48341754653813955660846264366284098172796223430722056177937968683498773714080;
    48484162460659201965108755335561423327705948685114985387901199712967492799400;
    50759889797213412594262252870110552994994366442451196415699887243604071305839;
    50955825839009289821604113771062235319098853321410090731863241258734588943200;
    54505187313676784464878751148322761691560564217374508915019758306426608190336;
    55350220591258251787936346076721992586466589426758295479810874907012506616080;
    56256045143175105372888095040395889904589642293421498232618550788484197660582;
    56854826227906566516207341748984655839529937393557216387425646227340591607400;
    56938239550968052100102746594289983720208430783654750812655867193981461032552;
    57697363028626646691489385277488966979517572667192787211819137217002966782374;
    57890033205428833578151300635918288940379872769852787538368822527657329914601;
    57895244667921615958436104249448862925335341665330312711318197141107945666704;
    58539925122597550166322920575545472700271475377080421966729652691289453998400;
    58581570734706829723734750399507640353338320976650242817677870309460352976124;
    58847916211144794105952841312586297133316018561477477669862740890441933482315;
    59472804927361767075034152987423863783072659888547808994143652812766795853820;
    59764452579560209984403791864050736275348814309550643143764759222949152608000;
    62325538344905058985134254156935363721614589915261177028589057057470980910540;
    62402043440546398430574263015835794780359263295572697572864225049951603741890;
    63142389091382829360404517440577204545591981524524056756140981692421645935271;
    63401438677619709163528488164403696764045066617604159110200562321628559010569;
    64520605466382287795979947119947391161379140875828901534398562362555289814752;
    66064578863172180383346681513130411812539241892503505000811804196913863900000;
    66762875317618042610822481441441384890116960781722989788275112171421848048160;
    67836724081126209683895911618560943688898181418859852318376534519327629014720;
    68672182864267650466775337072966484805275025945949879305605599182520021165000;
    68995322807990850391898385452400388249708285081463043660098122189418289599700;
    71362729318857392109310254821968518483412793624745632091295837891090424372400;
    71853016462997477912115668306570936196316239771107040858666997084223164363558;
    72623133607386911797910836456678334048145044216471540371267798105547583516000;
    72719748456287326001612558475824391786958209291498167411387549084426210461320;
    73343976693641213333906562114407781927698425337240098903988712119330752113600;
    75182827503852775280588788942321840874181137094881675980919687737800573614400;
    75296820011451340179434379670443583606931743473588760640951314657464601804800;
    78077052765244316194068248092242295157706935705803098578594846130771524232240;
    79938676863432391584275665676753783082299476875984400266537330726674325151884;
    80121605523792875831120688943098794458261336456968205026560560519024814000760;
    80243667856150070970748562436660978791348876280324358815956854848880988120640;
    82195904315665855028869249333643156096426990602197336577815311860865630224440;
    82613302698559667984052968091743850331831136392024719277889020176278645820126;
    83082260293072885458756407581682659594365355241512161742023906154158470442000;
    83243062587427494889261177970671859645315427177466733350747862161026446712013;
    83335984229932898903424236706950624521689591494798596343304341117115861812100;
    84109333583107171800918277477803222020383015619174607001724659943500769589840;
    85947984490821663006677792389988520794677538950554626396536970962932105354672;
    88341411409754804905721901377662389800379895874157686951338138555055393004000;
    88627732897159214085080539868404951528464481267668204997447535343047900298300;
    89323791619509813754242663799677858110556755007202455345277236111499278508800;
    91432437283641651077892150361056139395458332038562779269504524488302280681180;
    92030605346786824979933770543094900251783459122223611199968511830504077493000;
    95231573116816941933749580638032865562687021978472896072836370116733588107868;
    96304607406066248757532096563837886123718900673226267236205316365673491833120;
    97489892835592931908022128293701508503170400198932339077217946409203158374000;
    98425844697585851291891359889738956558430689774873366678403409634794262375560;
    98741014908900642623251912701683547190715423264438747545383782468423882330760;
    101473076076295150672378446951447782138517460199055054675293636697396958930800;
    104960534778525445847858583511646248386119610957067797743546179991777249022720;
    105141916058590999970823319323957140514975223122556848284614376632962749643588;
    105766539287303383715816674623958134965870093073780160647407292003184545602880;
    108372467589390502107754001088886752230023249580383960766333184944526208604460;
    108429624215635507811719650275085786154808626244891256434572190635739606732208;
    109632999898897883823072393555261036049217339396741754729531008057115242890200;
    112247080686092051545195642918201035373295481160561894815476092316730962323596;
    112724384874650555983234743235212025382396266670787049877158884660213215211600;
    114734948540432053348214709305018780072095271603435850753445866508962677681400;
    115791053871609434289573741826569247252306004125445806648639593124030848311189
].
(** For every depth, from 31 down: the place in [blockers] of a multiple of the width with the next cofactor *)
Definition blocker_rows : list (list N) := [
 [
    246; 229; 269; 200; 175; 237; 236; 203; 246; 240; 253; 235; 199; 268; 242; 255; 137; 206; 260; 247; 244; 274;
    266; 242; 207; 190; 216; 250; 225; 247; 194; 218; 191; 265; 197; 238; 259; 258; 206; 171; 144; 210; 91; 130; 260;
    251; 196; 187; 203; 149; 237; 234; 151; 262; 108; 271; 245; 160; 225; 276; 200; 256; 167; 272; 187; 123; 187;
    115; 269; 119; 217; 249; 104; 277; 209; 84; 257; 139; 134; 230; 246; 243; 204; 151; 183; 270; 203; 102; 130; 262;
    255; 174; 247; 168; 268; 183; 258; 64; 175; 213; 220; 165; 158; 205; 245; 93; 148; 170; 214; 181; 118; 176; 157;
    92; 205; 260; 167; 199; 97; 259; 209; 269; 127; 191; 154; 109; 100; 190; 246; 275; 266; 100; 72; 101; 166; 275;
    89; 189; 239; 261; 261; 65; 141; 81; 97; 90; 231; 100; 66; 248; 140; 228; 234; 127; 101; 51; 197; 56; 242; 198;
    79; 85; 236; 225; 173; 264; 202; 216; 153; 76; 276; 193; 112; 253; 172; 152; 79; 73; 157; 36; 265; 267; 238; 111;
    92; 78; 276; 138; 91; 48; 115; 149; 271; 265; 185; 251; 200; 45; 168; 249; 196; 161; 94; 85; 143; 42; 178; 263;
    188; 192; 105; 42; 230; 199; 103; 141; 249; 94; 231; 257; 175; 42; 171; 187; 235; 50; 256; 231; 151; 60; 101;
    138; 271; 236; 90; 38; 244; 129; 124; 256; 218; 205; 260; 195; 255; 237; 235; 228; 66; 99; 171; 73; 68; 253; 149;
    154; 260; 54; 105; 202; 243; 150; 199; 53; 151; 230; 262; 96; 97; 167; 133; 112; 213; 66; 208; 265; 221; 128; 59;
    107; 170; 237; 269; 157; 178; 41; 114; 62; 200; 240; 219; 206; 33; 227; 49; 95; 89; 98; 206; 50; 30; 70; 162;
    235; 196; 238; 184; 239; 137; 82; 260; 147; 201; 55; 183; 130; 121; 109; 92; 138; 225; 226; 145; 148; 144; 169;
    160; 126; 269; 256; 152; 116; 200; 185; 153; 67; 101; 136; 260; 114; 109; 189; 100; 218; 93; 275; 163; 193; 265;
    35; 255; 258; 250; 53; 251; 254; 154; 135; 28; 108; 148; 111; 137; 132; 123; 104; 139; 41; 137; 117; 67; 131; 34;
    132; 218; 24; 197; 233; 194; 17; 118; 38; 243; 210; 79; 181; 91; 124; 65; 253; 182; 16; 237; 267; 167; 238; 80;
    269; 253; 120; 140; 248; 52; 61; 273; 47; 39; 256; 235; 176; 106; 31; 172; 29; 217; 88; 245; 232; 119; 261; 236;
    272; 214; 277; 144; 209; 222; 258; 206; 257; 26; 96; 207; 238; 36; 25; 246; 261; 246; 76; 203; 177; 32; 229; 91;
    114; 252; 82; 245; 161; 104; 11; 151; 176; 102; 166; 20; 159; 262; 212; 134; 80; 125; 43; 276; 18; 229; 150; 137;
    142; 255; 51; 130; 78; 179; 23; 273; 57; 230; 158; 264; 21; 130; 119; 58; 240; 214; 53; 213; 107; 195; 192; 257;
    216; 15; 225; 202; 167; 265; 111; 266
 ];
 [
    11; 243; 174; 157; 6; 229; 211; 210; 123; 20; 264; 84; 46; 160; 217; 9; 158; 36; 103; 263; 130; 112; 164; 168;
    204; 226; 233; 51; 50; 84; 95; 63; 167; 58; 35; 85; 23; 20; 246; 122; 40; 258; 191; 272; 161; 89; 71; 200; 259;
    272; 215; 229; 5; 269; 129; 210; 56; 224; 124; 217; 128; 12; 7; 197; 14; 269; 118; 155; 250; 244; 186; 15; 92;
    175; 258; 27; 41; 92; 193; 241; 261; 258; 44; 272; 100; 140; 248; 77; 19; 273; 277; 128; 165; 247; 40; 149; 86;
    250; 78; 214; 115; 229; 240; 10; 152; 75; 223; 252; 156; 181; 93; 87; 192; 196; 123; 83; 69; 236; 111; 262; 199;
    206; 160; 77; 238; 240; 4; 22; 255; 75; 264; 194; 146; 260; 275; 250; 232; 67; 156; 22; 234; 183; 3; 249; 37;
    198; 199; 185; 156; 191; 8; 84; 170; 244; 13; 67; 127; 247; 85; 236; 107; 273; 234; 207; 178; 108; 5; 56; 50;
    183; 246; 83; 74; 210; 180; 193; 187; 257; 52; 48; 110; 224; 113; 236; 150; 273; 278; 35; 64; 97; 251; 119; 1;
    58; 113; 38; 90; 93; 81; 171; 147; 76; 2; 244; 200; 108; 192; 83; 271; 173; 126; 202; 268; 188; 68; 56; 237; 175;
    53; 204; 134; 244; 56; 214; 113; 75; 234; 231; 272; 216; 113; 82; 0; 115; 124; 266; 235; 127; 47; 15; 161; 263;
    158; 92; 0; 206; 126; 159; 78; 75
 ];
 [
    65; 260; 35; 149; 0; 246; 197; 83; 135; 249; 136; 214; 236; 201; 0; 253; 156; 91; 228; 251; 0; 247; 129; 274; 65;
    148; 132; 15; 128; 213; 199; 10; 254; 118; 0; 83; 235; 79; 50; 15; 3; 246; 274; 176; 47; 194; 10; 241; 192; 204;
    2; 240; 234; 207; 268; 197; 195; 91; 2; 114; 113; 268; 2; 274; 2; 75; 29; 83; 51; 200; 126; 10; 113; 75; 254;
    170; 210; 12; 272; 83; 65; 59; 170; 181; 256; 157; 203; 237; 2; 20; 193; 245; 2; 137; 103; 238; 247; 195; 2; 160;
    1; 235; 150; 242; 232; 259; 237; 42; 113; 224; 3; 203; 13; 138; 194; 87; 10; 89; 261; 119; 113; 202; 1; 173; 173;
    89; 29; 5; 114; 48; 151; 124; 158; 79; 49; 15; 77; 201; 200; 208; 23; 260; 212; 263; 153; 271; 10; 15; 1; 190;
    259; 247; 241; 270; 185; 35; 151; 30; 83; 73; 1; 253; 249; 255; 1; 190; 132; 87; 183; 239; 111; 65; 232; 175;
    110; 87; 50; 173; 100; 115; 275; 269; 14; 243; 250; 198; 258; 241; 1; 236; 1; 272; 92; 75; 152; 165; 10; 191; 49;
    84; 278; 240; 225; 90; 251; 264; 235; 125; 168; 75; 76; 77; 197; 213; 80; 154; 181; 266; 13; 125; 255; 171; 123;
    35; 21; 130; 134; 228; 206; 88; 126; 171; 155; 153; 110; 70; 175; 273; 101; 230; 36; 58; 129; 252; 78; 108; 194;
    87; 278; 190
 ];
 [
    228; 109; 239; 139; 109; 246; 129; 94; 200; 12; 119; 190; 83; 89; 150; 10; 212; 118; 62; 87; 229; 224; 278; 42;
    187; 216; 128; 32; 166; 80; 77; 259; 266; 261; 278; 171; 201; 140; 229; 264; 187; 273; 231; 174; 67; 240; 41;
    170; 278; 226; 205; 265; 3; 268; 232; 77; 194; 198; 278; 220; 135; 224; 123; 274; 156; 262; 197; 119; 270; 271;
    141; 199; 278; 269; 110; 77; 278; 158; 189; 87; 229; 174; 24; 204; 113; 188; 110; 170; 232; 269; 105; 172; 154;
    165; 218; 59; 110; 12; 218; 42; 109; 203; 110; 21; 209; 242; 245; 237; 51; 144; 277; 210; 5; 154; 110; 104; 229;
    234; 205; 252; 181; 102; 199; 87; 248; 242; 23; 127; 161; 207; 276; 275; 259; 108; 8; 249; 3; 268; 110; 35; 29;
    224; 217; 51; 64; 206; 233; 87; 214; 79; 138; 75; 189; 12; 180; 148; 160; 236; 174; 32; 49; 247; 180; 185; 228;
    93; 180; 252; 166; 236; 196; 141; 180; 140; 172; 77; 76; 12; 3; 173; 238; 268; 272; 204; 212; 206; 180; 77; 8;
    102; 160; 269; 124; 12; 156; 256; 180; 104; 180; 27; 29; 183; 165; 230; 269; 203; 118; 35; 180; 273; 207; 27;
    202; 195; 246; 231; 166; 12; 102; 27; 237; 80; 265; 268; 210; 262; 74; 174; 74; 20; 78; 27; 198; 203; 3; 58; 189;
    224; 138; 167; 274; 237; 56; 256; 74; 66; 156; 246; 203; 12
 ];
 [
    269; 49; 132; 228; 134; 191; 8; 58; 102; 242; 74; 5; 225; 224; 266; 80; 3; 137; 147; 27; 23; 183; 10; 159; 8;
    175; 277; 81; 74; 137; 248; 240; 246; 89; 5; 27; 215; 199; 74; 252; 74; 195; 149; 158; 146; 240; 251; 168; 153;
    191; 119; 276; 239; 157; 64; 139; 156; 151; 171; 27; 8; 220; 183; 244; 23; 119; 158; 109; 74; 217; 5; 170; 269;
    251; 13; 242; 13; 188; 102; 159; 202; 268; 134; 30; 8; 224; 250; 271; 257; 224; 51; 27; 277; 238; 181; 176; 49;
    244; 186; 173; 146; 216; 81; 5; 114; 67; 128; 168; 76; 160; 13; 84; 78; 122; 242; 149; 13; 200; 13; 251; 72; 257;
    19; 85; 13; 218; 123; 28; 51; 187; 187; 60; 227; 79; 21; 51; 174; 115; 8; 155; 8; 175; 144; 155; 215; 90; 37;
    229; 264; 258; 62; 259; 216; 274; 37; 155; 218; 181; 21; 276; 156; 170; 91; 42; 41; 140; 100; 58; 209; 172; 243;
    209; 209; 112; 234; 81; 37; 144; 37; 155; 259; 46; 47; 252; 146; 175; 156; 49; 160; 190; 111; 225; 227; 277; 182;
    108; 274; 104; 119; 229; 37; 249; 276; 133; 89; 240; 176; 274; 152; 122; 69; 155; 271; 144; 198; 80; 36; 58; 269;
    116; 37; 127; 227; 52; 126; 270; 243; 66; 78; 229; 37; 252; 129; 207; 253; 103; 254; 207; 207; 72; 242; 107; 52;
    67; 82; 102; 165; 256; 16; 91
 ];
 [
    242; 122; 275; 64; 62; 229; 73; 107; 85; 90; 186; 266; 193; 253; 215; 127; 37; 275; 269; 159; 69; 20; 23; 250;
    210; 137; 123; 155; 19; 200; 84; 155; 237; 251; 3; 275; 135; 20; 168; 192; 146; 270; 250; 52; 218; 46; 267; 263;
    101; 122; 215; 176; 176; 66; 146; 32; 261; 122; 19; 242; 239; 218; 220; 148; 16; 158; 253; 155; 109; 79; 72; 252;
    136; 274; 69; 123; 232; 200; 190; 5; 69; 255; 146; 59; 146; 198; 192; 5; 216; 248; 126; 35; 150; 205; 146; 219;
    21; 46; 227; 171; 240; 258; 146; 124; 265; 122; 22; 92; 101; 46; 175; 243; 22; 253; 55; 122; 69; 257; 62; 229;
    22; 115; 207; 144; 241; 137; 134; 60; 187; 46; 24; 51; 23; 175; 267; 122; 138; 67; 220; 204; 73; 195; 22; 191;
    232; 88; 69; 82; 134; 130; 22; 38; 116; 58; 128; 106; 270; 234; 53; 263; 22; 206; 182; 144; 102; 157; 138; 149;
    19; 260; 69; 122; 126; 246; 22; 63; 167; 139; 47; 270; 168; 20; 134; 264; 107; 56; 129; 124; 78; 166; 76; 106;
    252; 181; 194; 200; 254; 203; 176; 21; 101; 258; 16; 81; 231; 204; 240; 73; 235; 199; 40; 63; 244; 66; 212; 263;
    201; 179; 206; 76; 234; 235; 241; 85; 38; 108; 4; 168; 19; 115; 102; 32; 4; 200; 271; 72; 116; 20; 66; 219; 4;
    217; 96; 108; 4; 79; 216; 137; 149; 204
 ];
 [
    50; 214; 138; 204; 91; 191; 130; 38; 270; 67; 141; 94; 189; 20; 4; 49; 19; 88; 166; 182; 172; 190; 4; 137; 197;
    179; 276; 85; 254; 268; 108; 168; 164; 256; 238; 103; 227; 190; 161; 194; 101; 59; 69; 106; 4; 237; 19; 250; 167;
    185; 42; 216; 101; 273; 125; 150; 191; 259; 4; 141; 265; 188; 96; 257; 42; 91; 148; 230; 41; 93; 100; 58; 69; 88;
    176; 219; 205; 84; 238; 217; 193; 66; 212; 63; 42; 34; 52; 242; 223; 207; 7; 216; 270; 253; 260; 97; 272; 245;
    223; 48; 23; 104; 268; 262; 223; 269; 77; 271; 240; 195; 104; 196; 73; 153; 174; 206; 111; 247; 112; 243; 189;
    59; 257; 106; 212; 244; 261; 63; 24; 255; 223; 28; 7; 217; 205; 102; 132; 190; 228; 203; 223; 200; 237; 230; 96;
    274; 253; 173; 16; 144; 170; 28; 223; 56; 24; 274; 260; 220; 152; 36; 223; 225; 233; 218; 241; 213; 160; 35; 7;
    262; 223; 218; 223; 140; 115; 63; 237; 48; 241; 172; 84; 265; 86; 219; 201; 144; 174; 90; 32; 45; 86; 85; 116;
    205; 217; 236; 19; 250; 7; 242; 212; 213; 40; 63; 7; 273; 246; 102; 161; 230; 151; 173; 86; 203; 86; 49; 277;
    107; 138; 265; 175; 214; 154; 181; 126; 67; 19; 139; 147; 199; 181; 242; 253; 72; 154; 63; 196; 93; 212; 63; 123;
    97; 190; 48; 232; 158; 237; 63; 238; 249
 ];
 [
    151; 30; 123; 52; 86; 246; 141; 167; 7; 174; 105; 253; 261; 277; 165; 70; 21; 162; 254; 9; 229; 34; 90; 248; 86;
    256; 7; 197; 86; 229; 243; 172; 38; 255; 86; 59; 24; 104; 91; 225; 214; 89; 82; 9; 152; 188; 86; 219; 191; 178;
    210; 246; 165; 79; 62; 101; 173; 244; 241; 64; 52; 251; 76; 9; 44; 260; 44; 9; 7; 79; 193; 217; 141; 149; 209;
    175; 159; 45; 129; 255; 236; 90; 101; 231; 32; 203; 171; 9; 42; 214; 235; 38; 196; 115; 62; 196; 44; 179; 199;
    209; 141; 235; 76; 243; 129; 272; 128; 139; 44; 134; 244; 9; 164; 207; 216; 225; 7; 229; 109; 151; 43; 269; 215;
    9; 235; 256; 44; 192; 238; 198; 111; 106; 44; 190; 161; 276; 239; 84; 158; 32; 148; 242; 228; 265; 247; 262; 64;
    9; 44; 171; 135; 100; 148; 178; 44; 272; 241; 80; 218; 109; 62; 200; 43; 88; 231; 206; 166; 270; 144; 179; 185;
    262; 32; 137; 212; 246; 115; 137; 38; 178; 43; 34; 215; 257; 241; 59; 114; 250; 154; 80; 255; 118; 35; 98; 123;
    166; 256; 191; 139; 49; 53; 179; 44; 56; 126; 240; 175; 72; 100; 236; 153; 9; 194; 97; 82; 81; 195; 179; 178;
    115; 43; 269; 21; 179; 215; 59; 139; 165; 243; 183; 269; 98; 72; 175; 186; 28; 50; 80; 32; 109; 258; 26; 92; 60;
    138; 237; 186; 108; 185; 226
 ];
 [
    38; 234; 197; 200; 197; 269; 131; 253; 51; 89; 32; 179; 185; 194; 196; 219; 24; 59; 243; 148; 30; 165; 43; 179;
    183; 26; 159; 249; 90; 112; 36; 239; 255; 118; 16; 125; 150; 207; 186; 106; 185; 265; 175; 226; 160; 174; 82;
    197; 215; 30; 266; 259; 148; 34; 124; 98; 186; 66; 111; 139; 174; 220; 43; 106; 193; 268; 233; 85; 128; 104; 186;
    125; 227; 149; 186; 248; 135; 188; 183; 192; 186; 216; 132; 125; 215; 160; 119; 237; 239; 234; 62; 191; 202; 194;
    190; 125; 218; 274; 216; 106; 114; 143; 227; 127; 266; 167; 186; 229; 215; 242; 159; 72; 271; 209; 102; 60; 94;
    144; 14; 107; 76; 127; 91; 93; 255; 209; 160; 129; 172; 56; 14; 124; 246; 175; 275; 106; 30; 245; 116; 245; 21;
    137; 199; 125; 228; 220; 272; 53; 14; 140; 140; 125; 194; 247; 252; 141; 127; 66; 73; 203; 201; 200; 227; 210;
    135; 175; 228; 171; 131; 26; 14; 106; 105; 276; 49; 249; 181; 213; 129; 187; 230; 34; 132; 36; 127; 251; 240;
    185; 256; 45; 257; 160; 227; 26; 139; 219; 138; 196; 101; 167; 210; 248; 43; 62; 38; 194; 197; 78; 200; 140; 76;
    250; 141; 213; 267; 88; 189; 173; 127; 149; 238; 80; 207; 139; 119; 92; 14; 28; 71; 104; 135; 225; 66; 26; 151;
    166; 159; 229; 14; 239; 189; 226; 109; 240; 14; 34; 71; 277; 14; 165
 ];
 [
    232; 119; 71; 216; 114; 246; 119; 125; 235; 92; 159; 39; 170; 188; 264; 274; 202; 115; 43; 98; 211; 34; 111; 53;
    159; 26; 50; 26; 197; 92; 71; 230; 178; 59; 232; 231; 166; 143; 108; 234; 41; 196; 71; 28; 64; 244; 71; 39; 62;
    107; 230; 199; 159; 175; 73; 192; 211; 190; 137; 260; 247; 157; 147; 137; 135; 162; 218; 26; 85; 93; 275; 65; 91;
    276; 258; 148; 71; 45; 55; 26; 116; 269; 71; 253; 24; 244; 211; 88; 268; 213; 71; 82; 183; 188; 246; 270; 71;
    229; 53; 100; 40; 236; 160; 276; 211; 48; 40; 93; 132; 80; 265; 26; 76; 267; 40; 88; 262; 34; 97; 36; 277; 172;
    170; 94; 40; 187; 138; 226; 242; 240; 174; 218; 182; 260; 189; 222; 205; 162; 135; 222; 263; 123; 40; 244; 40;
    269; 235; 222; 43; 175; 204; 175; 131; 130; 43; 39; 150; 220; 227; 222; 246; 259; 24; 236; 266; 143; 40; 123; 29;
    261; 173; 246; 164; 267; 238; 98; 211; 265; 81; 262; 111; 209; 262; 153; 164; 248; 149; 268; 237; 30; 112; 39;
    168; 238; 211; 153; 212; 245; 29; 197; 211; 112; 257; 229; 240; 34; 128; 222; 29; 207; 16; 129; 115; 104; 166;
    137; 114; 148; 237; 154; 234; 194; 56; 28; 147; 198; 115; 205; 130; 235; 96; 222; 153; 149; 88; 222; 211; 157;
    47; 225; 98; 220; 256; 168; 161; 115; 164; 30; 104; 277
 ];
 [
    56; 148; 206; 39; 199; 191; 249; 222; 164; 109; 249; 264; 210; 221; 270; 48; 194; 34; 131; 60; 164; 213; 152;
    230; 261; 34; 235; 207; 164; 221; 152; 28; 82; 108; 164; 222; 228; 229; 171; 39; 134; 130; 233; 192; 141; 213;
    191; 138; 96; 149; 164; 144; 135; 229; 183; 222; 64; 162; 152; 226; 50; 237; 114; 219; 164; 121; 65; 85; 208;
    199; 90; 216; 262; 165; 254; 39; 55; 221; 72; 242; 52; 247; 46; 218; 211; 217; 119; 268; 15; 121; 238; 229; 246;
    242; 46; 139; 227; 121; 140; 93; 154; 203; 130; 171; 47; 65; 244; 184; 147; 258; 46; 91; 46; 121; 206; 274; 127;
    245; 214; 39; 161; 101; 38; 56; 46; 268; 81; 39; 88; 253; 21; 158; 211; 104; 129; 203; 151; 266; 36; 259; 211;
    203; 171; 30; 178; 121; 29; 48; 276; 203; 153; 81; 16; 118; 49; 256; 206; 112; 135; 154; 6; 134; 171; 184; 6; 93;
    220; 39; 225; 48; 128; 81; 139; 204; 171; 266; 55; 210; 82; 39; 165; 157; 205; 178; 168; 91; 134; 182; 6; 137;
    141; 137; 15; 174; 100; 261; 105; 175; 216; 72; 43; 72; 195; 172; 15; 220; 160; 219; 6; 235; 119; 28; 88; 200; 6;
    182; 269; 121; 150; 248; 6; 108; 101; 60; 254; 190; 81; 152; 57; 143; 277; 276; 108; 225; 131; 217; 202; 242;
    172; 153; 187; 245; 96; 242; 16; 143; 175; 152; 24; 162
 ];
 [
    239; 225; 141; 176; 264; 229; 84; 166; 50; 121; 238; 234; 31; 243; 165; 28; 6; 162; 65; 268; 242; 143; 91; 200;
    90; 259; 116; 182; 82; 144; 29; 270; 274; 236; 6; 225; 196; 235; 236; 176; 209; 209; 109; 172; 178; 137; 259;
    230; 185; 121; 194; 204; 6; 93; 229; 28; 57; 191; 181; 219; 49; 220; 78; 154; 6; 267; 126; 182; 209; 196; 105;
    250; 259; 183; 189; 137; 52; 247; 255; 182; 50; 198; 31; 197; 212; 157; 131; 182; 205; 89; 29; 237; 57; 204; 21;
    268; 248; 190; 57; 182; 191; 260; 254; 184; 231; 173; 57; 163; 57; 112; 191; 239; 57; 196; 127; 255; 142; 171;
    262; 207; 64; 121; 244; 107; 124; 245; 202; 163; 142; 121; 61; 167; 57; 200; 142; 251; 57; 108; 115; 60; 53; 221;
    228; 187; 114; 97; 197; 96; 24; 246; 55; 163; 194; 216; 189; 53; 47; 234; 147; 184; 195; 65; 193; 163; 142; 260;
    141; 219; 254; 107; 53; 98; 153; 194; 24; 70; 131; 264; 167; 48; 132; 210; 142; 163; 201; 269; 57; 205; 142; 198;
    206; 261; 217; 220; 210; 196; 57; 225; 23; 163; 203; 200; 179; 219; 251; 188; 142; 130; 31; 89; 61; 163; 209;
    112; 174; 171; 72; 121; 142; 163; 61; 245; 31; 269; 36; 260; 229; 151; 52; 104; 53; 163; 111; 262; 244; 197; 187;
    221; 16; 235; 239; 193; 161; 149; 191; 242; 201; 98; 167; 140
 ];
 [
    142; 121; 268; 118; 198; 229; 263; 190; 254; 162; 31; 271; 200; 150; 275; 162; 195; 108; 142; 226; 42; 242; 61;
    163; 116; 92; 114; 176; 16; 140; 199; 209; 61; 65; 103; 167; 167; 175; 31; 108; 142; 48; 160; 229; 201; 199; 271;
    207; 231; 277; 142; 270; 242; 93; 245; 98; 90; 253; 174; 248; 177; 221; 55; 216; 185; 30; 73; 258; 18; 191; 267;
    163; 65; 33; 269; 258; 225; 188; 177; 119; 268; 276; 62; 145; 131; 217; 250; 268; 18; 33; 177; 145; 61; 229; 139;
    145; 96; 151; 171; 162; 18; 115; 231; 72; 189; 68; 201; 274; 123; 271; 18; 158; 175; 33; 36; 128; 38; 229; 254;
    145; 149; 176; 124; 64; 148; 218; 177; 70; 269; 123; 18; 127; 265; 79; 18; 162; 31; 175; 131; 115; 209; 206; 61;
    97; 177; 33; 202; 269; 47; 271; 197; 226; 64; 266; 263; 239; 147; 104; 148; 162; 18; 33; 253; 98; 73; 216; 16;
    70; 268; 123; 18; 248; 61; 157; 131; 192; 229; 267; 141; 151; 161; 256; 193; 247; 226; 247; 177; 188; 199; 149;
    18; 263; 251; 264; 72; 48; 107; 260; 177; 175; 70; 118; 105; 145; 109; 221; 124; 240; 18; 33; 183; 82; 199; 191;
    185; 98; 36; 187; 178; 118; 31; 134; 175; 189; 225; 68; 160; 242; 200; 84; 257; 72; 61; 200; 116; 108; 18; 175;
    114; 274; 177; 257; 61; 162; 11; 216; 131; 70; 31; 68
 ];
 [
    197; 181; 51; 70; 115; 246; 11; 263; 149; 250; 171; 118; 11; 188; 177; 107; 255; 269; 238; 275; 274; 229; 246;
    127; 175; 166; 161; 226; 228; 245; 31; 259; 91; 59; 98; 89; 201; 149; 123; 145; 269; 68; 194; 188; 255; 238; 11;
    175; 61; 165; 177; 167; 30; 240; 52; 153; 167; 264; 132; 244; 217; 97; 177; 70; 202; 269; 82; 207; 78; 79; 11;
    166; 269; 197; 147; 259; 47; 45; 61; 184; 205; 207; 226; 64; 107; 160; 206; 149; 61; 68; 203; 129; 51; 137; 11;
    162; 161; 33; 268; 105; 204; 203; 11; 256; 96; 33; 11; 171; 85; 262; 130; 172; 205; 267; 31; 137; 152; 143; 229;
    187; 11; 263; 177; 70; 90; 187; 236; 60; 240; 244; 208; 54; 11; 199; 177; 220; 25; 235; 94; 276; 106; 221; 268;
    258; 229; 33; 210; 145; 157; 171; 192; 112; 265; 151; 25; 200; 92; 221; 225; 96; 201; 127; 176; 141; 178; 271;
    111; 134; 206; 154; 240; 174; 25; 225; 76; 145; 50; 138; 130; 209; 25; 257; 137; 70; 168; 108; 25; 175; 271; 221;
    240; 183; 229; 66; 206; 139; 25; 175; 132; 129; 131; 33; 96; 123; 126; 220; 233; 145; 166; 207; 178; 145; 251;
    276; 207; 54; 98; 33; 210; 184; 25; 45; 269; 91; 233; 206; 154; 118; 108; 200; 233; 195; 108; 197; 42; 145; 251;
    221; 249; 54; 31; 33; 178; 144; 266; 84; 47; 230; 267; 266
 ];
 [
    233; 119; 258; 54; 25; 229; 175; 145; 275; 123; 25; 109; 116; 246; 25; 250; 135; 109; 130; 184; 91; 210; 202;
    139; 67; 187; 203; 54; 98; 221; 233; 160; 152; 167; 25; 184; 166; 271; 25; 229; 197; 259; 253; 187; 52; 108; 55;
    245; 233; 33; 138; 256; 222; 175; 242; 5; 127; 225; 268; 184; 274; 127; 210; 218; 226; 246; 115; 237; 31; 237;
    130; 262; 130; 221; 47; 229; 141; 257; 174; 184; 134; 229; 171; 268; 233; 76; 209; 274; 271; 187; 251; 244; 47;
    190; 128; 239; 137; 157; 257; 54; 263; 108; 233; 133; 73; 104; 65; 184; 175; 221; 170; 277; 165; 225; 237; 184;
    265; 137; 30; 207; 150; 239; 120; 225; 132; 218; 267; 197; 120; 68; 247; 243; 190; 108; 120; 84; 205; 265; 199;
    160; 120; 123; 60; 129; 149; 137; 55; 258; 198; 143; 116; 272; 119; 68; 276; 218; 181; 143; 123; 200; 108; 255;
    245; 250; 120; 242; 111; 184; 148; 277; 120; 187; 120; 262; 237; 184; 130; 171; 120; 174; 116; 175; 120; 54; 214;
    253; 81; 137; 120; 45; 120; 70; 131; 246; 116; 253; 175; 200; 163; 72; 120; 193; 120; 70; 244; 238; 262; 196;
    269; 68; 205; 247; 100; 244; 16; 240; 81; 84; 128; 54; 214; 214; 115; 262; 174; 45; 55; 149; 275; 229; 210; 160;
    182; 68; 218; 70; 171; 267; 73; 208; 167; 239; 17; 170; 205; 143; 149; 208; 209; 137
 ];
 [
    91; 153; 204; 133; 161; 229; 181; 246; 147; 275; 175; 149; 175; 171; 147; 269; 17; 207; 17; 208; 210; 237; 199;
    261; 95; 138; 192; 92; 17; 109; 265; 271; 147; 240; 84; 175; 152; 149; 250; 197; 55; 45; 166; 208; 199; 175; 17;
    200; 153; 236; 72; 158; 81; 196; 200; 229; 115; 250; 194; 194; 268; 170; 62; 208; 42; 72; 149; 208; 147; 171; 55;
    213; 17; 101; 147; 124; 193; 123; 185; 208; 115; 68; 17; 54; 176; 137; 100; 133; 128; 203; 137; 101; 84; 181; 92;
    130; 160; 234; 62; 266; 55; 175; 17; 217; 62; 239; 17; 175; 95; 143; 149; 265; 17; 228; 17; 171; 256; 119; 17;
    54; 55; 191; 167; 85; 48; 160; 255; 208; 266; 253; 196; 207; 154; 207; 167; 72; 246; 277; 17; 208; 203; 242; 84;
    167; 117; 218; 54; 208; 152; 108; 210; 42; 242; 265; 91; 101; 117; 210; 85; 208; 183; 183; 117; 208; 237; 196;
    117; 103; 191; 183; 216; 133; 191; 108; 117; 229; 176; 242; 175; 213; 236; 206; 54; 264; 117; 137; 117; 274; 231;
    84; 264; 210; 240; 68; 137; 229; 117; 108; 209; 195; 81; 229; 204; 103; 166; 97; 269; 158; 140; 160; 200; 133;
    217; 137; 117; 246; 56; 68; 171; 133; 175; 205; 117; 133; 64; 97; 139; 205; 73; 216; 238; 196; 117; 119; 95; 260;
    54; 229; 30; 266; 55; 197; 137; 225; 62; 144; 65; 175; 108; 144
 ];
 [
    64; 250; 276; 103; 200; 246; 189; 249; 167; 137; 117; 133; 246; 250; 117; 100; 49; 175; 197; 108; 117; 108; 187;
    119; 54; 68; 136; 160; 152; 175; 137; 266; 229; 45; 238; 261; 262; 175; 136; 269; 255; 247; 274; 149; 95; 115;
    123; 199; 271; 68; 136; 108; 127; 265; 64; 133; 119; 194; 183; 133; 258; 143; 240; 210; 246; 123; 175; 137; 198;
    175; 91; 133; 109; 143; 136; 103; 136; 127; 171; 141; 267; 130; 171; 133; 203; 112; 246; 91; 136; 274; 259; 100;
    277; 108; 136; 187; 167; 97; 228; 187; 199; 149; 237; 200; 136; 194; 136; 197; 240; 112; 123; 181; 55; 160; 262;
    259; 136; 137; 189; 102; 54; 138; 160; 103; 190; 112; 269; 171; 235; 203; 255; 218; 199; 175; 229; 171; 136; 214;
    246; 133; 136; 170; 203; 133; 247; 115; 169; 137; 169; 244; 193; 133; 246; 160; 169; 207; 187; 245; 169; 103;
    175; 193; 200; 194; 169; 246; 229; 197; 170; 143; 95; 137; 231; 200; 161; 109; 169; 123; 194; 218; 64; 236; 183;
    244; 119; 206; 259; 209; 238; 216; 169; 203; 200; 264; 169; 103; 169; 203; 123; 123; 140; 45; 249; 269; 251; 207;
    199; 137; 169; 246; 247; 256; 175; 160; 169; 183; 203; 175; 169; 167; 169; 166; 92; 72; 62; 84; 199; 97; 237;
    250; 137; 103; 242; 167; 194; 103; 230; 92; 148; 103; 229; 143; 277; 115; 271; 165; 258; 238; 123; 45
 ];
 [
    137; 247; 204; 148; 158; 229; 105; 251; 137; 92; 84; 65; 168; 119; 171; 105; 176; 149; 199; 199; 200; 108; 109;
    253; 134; 94; 137; 105; 152; 123; 169; 225; 171; 149; 242; 166; 234; 183; 92; 270; 123; 200; 169; 97; 268; 65;
    145; 128; 201; 204; 187; 137; 134; 183; 89; 105; 42; 94; 72; 160; 266; 171; 76; 190; 64; 84; 95; 240; 115; 246;
    95; 175; 95; 137; 197; 207; 95; 183; 175; 199; 45; 94; 150; 216; 48; 130; 242; 176; 239; 148; 170; 207; 209; 262;
    262; 137; 218; 194; 193; 105; 95; 149; 115; 144; 200; 199; 91; 220; 225; 258; 168; 105; 101; 115; 228; 105; 181;
    119; 97; 166; 271; 94; 229; 171; 150; 175; 154; 166; 175; 154; 166; 109; 42; 175; 45; 199; 202; 84; 207; 181;
    130; 175; 95; 134; 72; 137; 174; 105; 202; 196; 256; 200; 237; 160; 218; 260; 137; 144; 175; 108; 95; 91; 95;
    134; 45; 171; 153; 108; 207; 138; 205; 129; 160; 108; 95; 218; 274; 94; 195; 185; 108; 119; 123; 175; 161; 194;
    166; 187; 119; 166; 204; 200; 187; 225; 42; 268; 95; 196; 276; 91; 269; 119; 139; 137; 173; 160; 245; 94; 137;
    245; 41; 240; 207; 171; 41; 115; 189; 229; 191; 160; 41; 137; 150; 200; 78; 225; 41; 246; 174; 175; 171; 148; 41;
    130; 174; 94; 185; 112; 160; 251; 115; 127; 267; 119; 41; 258; 165; 175; 247; 160
 ];
 [
    196; 228; 127; 123; 48; 246; 123; 166; 96; 67; 207; 123; 251; 123; 96; 253; 238; 49; 255; 175; 243; 104; 96; 204;
    42; 196; 183; 167; 160; 84; 199; 108; 200; 199; 99; 72; 85; 171; 256; 242; 99; 149; 267; 137; 119; 175; 235; 94;
    225; 176; 119; 166; 171; 130; 250; 94; 200; 137; 230; 204; 91; 108; 99; 134; 99; 253; 81; 246; 99; 171; 197; 174;
    200; 242; 99; 108; 123; 171; 203; 94; 42; 91; 72; 276; 175; 209; 129; 115; 153; 138; 66; 197; 269; 160; 108; 94;
    262; 101; 91; 239; 99; 108; 187; 202; 90; 214; 141; 248; 49; 115; 171; 175; 99; 237; 268; 21; 206; 108; 172; 264;
    149; 115; 73; 72; 99; 253; 183; 90; 187; 119; 174; 91; 127; 200; 194; 260; 101; 253; 244; 235; 92; 137; 250; 204;
    108; 250; 191; 274; 99; 76; 108; 160; 99; 137; 137; 210; 203; 92; 189; 277; 246; 137; 197; 200; 167; 183; 200;
    175; 96; 72; 123; 92; 207; 197; 237; 247; 194; 174; 154; 231; 166; 175; 99; 119; 99; 234; 91; 264; 99; 127; 246;
    137; 115; 119; 275; 236; 205; 200; 134; 141; 99; 108; 269; 190; 171; 190; 101; 154; 200; 72; 207; 108; 154; 108;
    99; 218; 225; 194; 99; 123; 175; 108; 137; 130; 72; 72; 262; 127; 174; 246; 119; 91; 229; 160; 194; 140; 151;
    174; 200; 166; 127; 137; 60; 127; 139; 101; 123; 139; 197; 225
 ];
 [
    183; 201; 123; 90; 149; 191; 199; 167; 115; 101; 137; 175; 48; 242; 85; 229; 240; 154; 139; 225; 130; 250; 56;
    123; 60; 91; 181; 174; 236; 108; 168; 228; 85; 91; 207; 109; 174; 115; 175; 42; 237; 84; 60; 140; 175; 175; 154;
    119; 270; 137; 50; 144; 50; 84; 101; 115; 199; 84; 194; 15; 185; 76; 175; 170; 171; 115; 60; 91; 229; 108; 197;
    101; 171; 115; 190; 134; 202; 76; 60; 92; 246; 202; 152; 123; 60; 160; 139; 187; 244; 205; 62; 160; 137; 92; 91;
    66; 108; 173; 149; 243; 152; 84; 108; 104; 127; 115; 141; 115; 203; 127; 137; 243; 111; 193; 171; 49; 123; 175;
    50; 115; 191; 108; 137; 210; 193; 119; 193; 166; 108; 276; 175; 100; 236; 175; 134; 101; 264; 84; 246; 160; 123;
    197; 123; 109; 229; 194; 115; 203; 230; 104; 130; 243; 166; 175; 198; 115; 137; 234; 137; 175; 151; 151; 167;
    170; 123; 108; 229; 152; 198; 240; 137; 149; 198; 115; 91; 166; 174; 154; 108; 175; 153; 144; 91; 217; 262; 123;
    228; 137; 108; 207; 127; 42; 76; 137; 249; 137; 115; 93; 138; 106; 137; 199; 93; 119; 269; 101; 242; 202; 245;
    167; 181; 84; 42; 119; 104; 91; 171; 244; 84; 207; 175; 127; 213; 203; 175; 134; 167; 73; 213; 108; 72; 101; 64;
    108; 197; 160; 262; 115; 64; 187; 109; 101; 256; 187; 240; 130; 257; 171; 160; 160
 ];
 [
    137; 216; 137; 42; 115; 191; 171; 253; 171; 119; 187; 160; 101; 101; 242; 115; 101; 115; 229; 109; 130; 101; 144;
    108; 108; 194; 42; 72; 207; 101; 100; 251; 138; 108; 200; 101; 129; 104; 204; 129; 138; 242; 123; 198; 270; 102;
    151; 81; 119; 108; 245; 102; 199; 160; 137; 134; 149; 72; 91; 90; 62; 119; 129; 139; 178; 101; 176; 203; 123;
    171; 76; 107; 149; 119; 216; 115; 62; 108; 76; 46; 197; 76; 168; 174; 137; 202; 72; 93; 16; 123; 119; 152; 91;
    144; 175; 91; 123; 130; 109; 49; 119; 108; 108; 42; 194; 91; 138; 65; 204; 119; 246; 76; 62; 199; 115; 139; 171;
    101; 149; 125; 76; 190; 72; 56; 49; 123; 204; 101; 137; 92; 76; 137; 91; 175; 251; 234; 166; 137; 141; 259; 149;
    84; 141; 218; 127; 108; 158; 137; 175; 84; 123; 209; 168; 91; 119; 85; 240; 115; 119; 42; 260; 123; 160; 108; 91;
    115; 42; 108; 160; 91; 97; 72; 137; 92; 165; 127; 97; 115; 214; 245; 123; 203; 127; 92; 148; 84; 189; 97; 97; 92;
    190; 137; 152; 239; 144; 115; 171; 175; 134; 160; 134; 89; 160; 128; 137; 166; 200; 101; 119; 228; 84; 123; 238;
    76; 183; 108; 85; 149; 235; 166; 172; 108; 81; 174; 42; 91; 129; 109; 100; 108; 126; 167; 205; 115; 183; 91; 101;
    65; 191; 160; 42; 137; 193; 92; 194; 102; 91; 137; 205; 76
 ];
 [
    108; 108; 91; 104; 155; 191; 137; 128; 115; 76; 161; 109; 237; 93; 42; 100; 185; 115; 127; 42; 204; 160; 62; 66;
    152; 48; 137; 49; 119; 84; 175; 101; 123; 91; 130; 115; 90; 84; 108; 166; 153; 123; 127; 137; 137; 101; 181; 42;
    72; 107; 72; 89; 21; 93; 138; 137; 49; 139; 119; 101; 84; 115; 84; 91; 129; 72; 167; 138; 91; 104; 194; 84; 84;
    137; 42; 114; 85; 92; 92; 129; 42; 167; 115; 91; 101; 76; 144; 168; 91; 93; 229; 91; 119; 101; 161; 108; 108; 65;
    137; 62; 160; 104; 123; 72; 101; 101; 42; 56; 108; 137; 101; 141; 67; 91; 107; 167; 38; 115; 91; 160; 214; 108;
    49; 137; 137; 115; 174; 90; 62; 97; 72; 152; 141; 104; 38; 42; 123; 101; 109; 84; 100; 84; 15; 81; 101; 76; 123;
    205; 66; 76; 115; 193; 84; 49; 100; 84; 109; 104; 85; 138; 152; 36; 175; 123; 42; 93; 107; 96; 91; 127; 73; 21;
    187; 66; 37; 42; 166; 119; 101; 115; 63; 101; 108; 72; 100; 108; 129; 129; 65; 102; 119; 102; 137; 72; 62; 139;
    176; 93; 149; 115; 76; 76; 137; 93; 107; 144; 115; 49; 108; 91; 204; 76; 48; 97; 21; 56; 204; 92; 91; 234; 111;
    84; 127; 137; 123; 91; 83; 42; 160; 115; 134; 72; 165; 115; 123; 92; 139; 92; 152; 115; 134; 89; 108; 101; 16;
    76; 47; 166; 81; 91
 ];
 [
    42; 65; 92; 62; 91; 191
 ]
].
