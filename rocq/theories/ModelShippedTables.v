(** The cross section tables of data/standard/interactions.xml, all 151 of them, row by row.
    Generated from the file; a row (m, e, n, f) stands for <val x="m*10^e" y="n*10^f"/> with
    x in units of xscale (always eV) and y in m^2 (a yscale of 1e-20*m^2 is part of f).  The
    number after [tab] counts the <Interaction> elements of the file from 0. *)
From Coq Require Import ZArith QArith List.
Import ListNotations.
Local Open Scope Z_scope.

(** m * 10^e *)
Definition dec (m e : Z) : Q := if e <? 0 then Qmake m (Z.to_pos (10 ^ (- e))) else inject_Z (m * 10 ^ e).
Definition rows_of (l : list (Z * Z * Z * Z)) : list (Q * Q) :=
  map (fun r => let '(m, e, n, f) := r in (dec m e, dec n f)) l.

(** data/standard/interactions.xml, from line 189. *)
Definition tab5 := rows_of [
  (1361, (-2), 0, 0); (14, 0, 26, (-23)); (16, 0, 163, (-23)); (18, 0, 23, (-22));
  (2, 1, 276, (-23)); (25, 0, 361, (-23)); (3, 1, 448, (-23)); (35, 0, 527, (-23));
  (4, 1, 608, (-23)); (5, 1, 685, (-23)); (6, 1, 701, (-23)); (7, 1, 68, (-22));
  (8, 1, 661, (-23)); (9, 1, 63, (-22)); (1, 2, 616, (-23)); (15, 1, 55, (-22))].
(** data/standard/interactions.xml, from line 211. *)
Definition tab6 := rows_of [
  (0, 0, 17173, (-24)); (75314, (-6), 17173, (-24)); (14226, (-5), 20042, (-24));
  (20084, (-5), 21603, (-24)); (30962, (-5), 24135, (-24)); (37657, (-5), 25654, (-24));
  (46025, (-5), 27131, (-24)); (58577, (-5), 28481, (-24)); (7113, (-4), 29747, (-24));
  (96234, (-5), 31224, (-24)); (12134, (-4), 32616, (-24)); (14393, (-4), 33333, (-24));
  (17322, (-4), 34304, (-24)); (20084, (-4), 35021, (-24)); (22762, (-4), 35485, (-24));
  (29289, (-4), 3654, (-23)); (32803, (-4), 37173, (-24)); (38661, (-4), 37932, (-24));
  (4159, (-3), 38228, (-24)); (48285, (-4), 38987, (-24)); (51632, (-4), 39409, (-24));
  (57322, (-4), 40127, (-24)); (61255, (-4), 40549, (-24)); (66109, (-4), 41181, (-24));
  (69456, (-4), 41603, (-24)); (74226, (-4), 42236, (-24)); (77908, (-4), 42574, (-24));
  (82929, (-4), 43291, (-24)); (85774, (-4), 43671, (-24)); (91297, (-4), 44177, (-24));
  (93473, (-4), 44515, (-24)); (99163, (-4), 45148, (-24)); (15, 0, 26794, (-24));
  (2, 1, 26794, (-24)); (25, 0, 26794, (-24)); (3, 1, 26794, (-24)); (35, 0, 26794, (-24));
  (4, 1, 26794, (-24)); (45, 0, 26794, (-24)); (5, 1, 28381, (-24)); (55, 0, 25995, (-24));
  (6, 1, 23924, (-24)); (65, 0, 22111, (-24)); (7, 1, 20515, (-24)); (75, 0, 19102, (-24));
  (8, 1, 17846, (-24)); (85, 0, 16723, (-24)); (9, 1, 15715, (-24)); (95, 0, 14805, (-24));
  (1, 2, 1398, (-23))].
(** data/standard/interactions.xml, from line 343. *)
Definition tab7 := rows_of [
  (0, 0, 11, (-21)); (1, (-2), 219, (-22)); (15, (-3), 255, (-22)); (2, (-2), 285, (-22));
  (3, (-2), 338, (-22)); (4, (-2), 382, (-22)); (5, (-2), 43, (-21)); (7, (-2), 508, (-22));
  (1, (-1), 592, (-22)); (12, (-2), 642, (-22)); (15, (-2), 708, (-22)); (17, (-2), 738, (-22));
  (2, (-1), 788, (-22)); (25, (-2), 848, (-22)); (3, (-1), 898, (-22)); (35, (-2), 936, (-22));
  (4, (-1), 967, (-22)); (5, (-1), 987, (-22)); (7, (-1), 997, (-22)); (1, 0, 996, (-22));
  (12, (-1), 1034, (-22)); (13, (-1), 1092, (-22)); (15, (-1), 1187, (-22));
  (17, (-1), 1347, (-22)); (19, (-1), 1641, (-22)); (21, (-1), 1685, (-22));
  (22, (-1), 1802, (-22)); (25, (-1), 1792, (-22)); (28, (-1), 21, (-20)); (3, 0, 172, (-21));
  (33, (-1), 153, (-21)); (36, (-1), 1396, (-22)); (4, 0, 1242, (-22)); (45, (-1), 1119, (-22));
  (5, 0, 1086, (-22)); (6, 0, 1036, (-22)); (7, 0, 1, (-19)); (8, 0, 102, (-21));
  (1, 1, 99, (-21)); (12, 0, 95, (-21)); (15, 0, 87, (-21)); (17, 0, 826, (-22));
  (2, 1, 76, (-21)); (25, 0, 67, (-21)); (3, 1, 59, (-21)); (5, 1, 38, (-21));
  (75, 0, 256, (-22)); (1, 2, 18, (-21)); (15, 1, 113, (-22)); (2, 2, 8, (-21));
  (3, 2, 48, (-22)); (5, 2, 23, (-22)); (7, 2, 143, (-23)); (1, 3, 7, (-22))].
(** data/standard/interactions.xml, from line 404. *)
Definition tab8 := rows_of [
  (2, (-2), 0, 0); (3, (-2), 25, (-23)); (4, (-1), 25, (-23)); (8, (-1), 25, (-23));
  (12, (-1), 47, (-23)); (16, (-1), 86, (-23)); (17, (-1), 15, (-23)); (18, (-1), 235, (-23));
  (19, (-1), 108, (-22)); (2, 0, 19, (-21)); (21, (-1), 203, (-22)); (22, (-1), 277, (-22));
  (23, (-1), 25, (-21)); (24, (-1), 219, (-22)); (25, (-1), 24, (-21)); (26, (-1), 217, (-22));
  (27, (-1), 162, (-22)); (28, (-1), 138, (-22)); (29, (-1), 118, (-22)); (3, 0, 103, (-22));
  (31, (-1), 84, (-22)); (32, (-1), 69, (-22)); (33, (-1), 5, (-21)); (36, (-1), 17, (-22));
  (5, 0, 0, 0)].
(** data/standard/interactions.xml, from line 436. *)
Definition tab9 := rows_of [
  (29, (-2), 0, 0); (3, (-1), 1, (-23)); (33, (-2), 17, (-24)); (4, (-1), 25, (-24));
  (75, (-2), 37, (-24)); (9, (-1), 55, (-24)); (1, 0, 65, (-24)); (11, (-1), 9, (-23));
  (116, (-2), 11, (-23)); (12, (-1), 125, (-24)); (122, (-2), 135, (-24)); (14, (-1), 7, (-22));
  (15, (-1), 1, (-21)); (16, (-1), 15, (-22)); (165, (-2), 0, 0); (36, (-1), 0, 0);
  (4, 0, 55, (-23)); (5, 0, 35, (-23)); (15, 0, 35, (-23)); (18, 0, 4, (-22)); (2, 1, 65, (-23));
  (22, 0, 85, (-23)); (23, 0, 85, (-23)); (25, 0, 6, (-22)); (29, 0, 3, (-22));
  (32, 0, 15, (-23)); (5, 1, 12, (-23)); (8, 1, 0, 0)].
(** data/standard/interactions.xml, from line 471. *)
Definition tab10 := rows_of [
  (16, (-1), 0, 0); (165, (-2), 27, (-22)); (17, (-1), 315, (-23)); (18, (-1), 54, (-22));
  (19, (-1), 1485, (-23)); (2, 0, 48, (-21)); (21, (-1), 2565, (-23)); (22, (-1), 12, (-21));
  (23, (-1), 45, (-21)); (24, (-1), 276, (-22)); (25, (-1), 159, (-22)); (26, (-1), 315, (-22));
  (27, (-1), 1545, (-23)); (275, (-2), 6, (-21)); (28, (-1), 135, (-22)); (29, (-1), 525, (-23));
  (3, 0, 87, (-22)); (31, (-1), 117, (-22)); (32, (-1), 855, (-23)); (33, (-1), 66, (-22));
  (34, (-1), 6, (-21)); (35, (-1), 585, (-23)); (36, (-1), 57, (-22)); (4, 0, 0, 0)].
(** data/standard/interactions.xml, from line 503. *)
Definition tab11 := rows_of [
  (17, (-1), 0, 0); (18, (-1), 15, (-23)); (19, (-1), 63, (-22)); (2, 0, 1935, (-23));
  (21, (-1), 33, (-21)); (22, (-1), 147, (-22)); (23, (-1), 54, (-22)); (24, (-1), 2115, (-23));
  (25, (-1), 3, (-20)); (26, (-1), 54, (-22)); (27, (-1), 105, (-22)); (275, (-2), 1725, (-23));
  (28, (-1), 1275, (-23)); (29, (-1), 33, (-22)); (3, 0, 9, (-21)); (31, (-1), 645, (-23));
  (32, (-1), 375, (-23)); (33, (-1), 345, (-23)); (34, (-1), 3, (-21)); (35, (-1), 213, (-23));
  (36, (-1), 0, 0)].
(** data/standard/interactions.xml, from line 532. *)
Definition tab12 := rows_of [
  (19, (-1), 0, 0); (2, 0, 96, (-22)); (21, (-1), 2055, (-23)); (22, (-1), 27, (-21));
  (23, (-1), 1695, (-23)); (24, (-1), 75, (-23)); (25, (-1), 96, (-22)); (26, (-1), 147, (-22));
  (27, (-1), 45, (-22)); (275, (-2), 96, (-22)); (28, (-1), 54, (-22)); (29, (-1), 855, (-23));
  (3, 0, 405, (-23)); (31, (-1), 282, (-23)); (32, (-1), 291, (-23)); (33, (-1), 615, (-24));
  (34, (-1), 0, 0)].
(** data/standard/interactions.xml, from line 557. *)
Definition tab13 := rows_of [
  (2, 0, 0, 0); (21, (-1), 2025, (-24)); (22, (-1), 1515, (-23)); (23, (-1), 2385, (-23));
  (24, (-1), 144, (-22)); (25, (-1), 555, (-23)); (26, (-1), 825, (-24)); (27, (-1), 12, (-21));
  (275, (-2), 1095, (-23)); (28, (-1), 675, (-23)); (29, (-1), 3, (-22)); (3, 0, 33, (-22));
  (31, (-1), 315, (-23)); (32, (-1), 6, (-22)); (33, (-1), 0, 0)].
(** data/standard/interactions.xml, from line 580. *)
Definition tab14 := rows_of [
  (21, (-1), 0, 0); (22, (-1), 825, (-23)); (23, (-1), 123, (-22)); (24, (-1), 153, (-22));
  (25, (-1), 144, (-22)); (26, (-1), 345, (-23)); (27, (-1), 225, (-24));
  (275, (-2), 345, (-23)); (28, (-1), 54, (-22)); (29, (-1), 66, (-22)); (3, 0, 2175, (-24));
  (31, (-1), 105, (-23)); (32, (-1), 315, (-23)); (33, (-1), 1035, (-24)); (34, (-1), 0, 0)].
(** data/standard/interactions.xml, from line 603. *)
Definition tab15 := rows_of [
  (22, (-1), 0, 0); (23, (-1), 63, (-24)); (24, (-1), 1125, (-23)); (25, (-1), 174, (-22));
  (26, (-1), 138, (-22)); (27, (-1), 78, (-22)); (275, (-2), 45, (-22)); (28, (-1), 315, (-23));
  (29, (-1), 246, (-23)); (3, 0, 48, (-22)); (31, (-1), 1635, (-24)); (32, (-1), 0, 0)].
(** data/standard/interactions.xml, from line 623. *)
Definition tab16 := rows_of [
  (23, (-1), 0, 0); (24, (-1), 126, (-24)); (25, (-1), 39, (-22)); (26, (-1), 66, (-22));
  (27, (-1), 96, (-22)); (275, (-2), 795, (-23)); (28, (-1), 6, (-21)); (29, (-1), 18, (-22));
  (3, 0, 63, (-24)); (31, (-1), 192, (-23)); (32, (-1), 204, (-23)); (33, (-1), 78, (-23));
  (34, (-1), 189, (-24)); (35, (-1), 0, 0)].
(** data/standard/interactions.xml, from line 645. *)
Definition tab17 := rows_of [
  (25, (-1), 0, 0); (26, (-1), 189, (-24)); (27, (-1), 36, (-22)); (275, (-2), 36, (-22));
  (28, (-1), 33, (-22)); (29, (-1), 345, (-23)); (3, 0, 264, (-23)); (31, (-1), 375, (-24));
  (32, (-1), 63, (-24)); (33, (-1), 1545, (-24)); (34, (-1), 252, (-24)); (35, (-1), 0, 0)].
(** data/standard/interactions.xml, from line 665. *)
Definition tab18 := rows_of [
  (617, (-2), 0, 0); (7, 0, 1, (-23)); (78, (-1), 28, (-24)); (85, (-1), 43, (-24));
  (9, 0, 52, (-24)); (1, 1, 82, (-24)); (11, 0, 1, (-22)); (12, 0, 12, (-23));
  (13, 0, 13, (-23)); (14, 0, 14, (-23)); (16, 0, 15, (-23)); (17, 0, 15, (-23));
  (18, 0, 14, (-23)); (2, 1, 12, (-23)); (22, 0, 1, (-22)); (24, 0, 89, (-24));
  (26, 0, 76, (-24)); (3, 1, 59, (-24)); (34, 0, 49, (-24)); (4, 1, 39, (-24));
  (5, 1, 34, (-24)); (7, 1, 7, (-24)); (15, 1, 0, 0)].
(** data/standard/interactions.xml, from line 695. *)
Definition tab19 := rows_of [
  (7, 0, 0, 0); (73, (-1), 2, (-23)); (78, (-1), 5, (-23)); (85, (-1), 15, (-23));
  (9, 0, 22, (-23)); (1, 1, 34, (-23)); (11, 0, 43, (-23)); (12, 0, 5, (-22));
  (13, 0, 55, (-23)); (14, 0, 6, (-22)); (16, 0, 65, (-23)); (17, 0, 65, (-23));
  (18, 0, 62, (-23)); (2, 1, 53, (-23)); (22, 0, 45, (-23)); (24, 0, 38, (-23));
  (26, 0, 33, (-23)); (3, 1, 25, (-23)); (34, 0, 21, (-23)); (4, 1, 17, (-23));
  (5, 1, 14, (-23)); (7, 1, 29, (-24)); (15, 1, 0, 0)].
(** data/standard/interactions.xml, from line 725. *)
Definition tab20 := rows_of [
  (735, (-2), 0, 0); (8, 0, 362, (-24)); (9, 0, 938, (-24)); (1, 1, 1508, (-24));
  (11, 0, 1863, (-24)); (12, 0, 2003, (-24)); (13, 0, 199, (-23)); (14, 0, 1816, (-24));
  (15, 0, 1615, (-24)); (16, 0, 1447, (-24)); (17, 0, 1307, (-24)); (18, 0, 1199, (-24));
  (2, 1, 1112, (-24)); (22, 0, 951, (-24)); (26, 0, 804, (-24)); (3, 1, 677, (-24));
  (34, 0, 563, (-24)); (4, 1, 429, (-24)); (5, 1, 268, (-24)); (7, 1, 67, (-24)); (15, 1, 0, 0)].
(** data/standard/interactions.xml, from line 753. *)
Definition tab21 := rows_of [
  (736, (-2), 0, 0); (8, 0, 18, (-24)); (9, 0, 496, (-24)); (1, 1, 804, (-24));
  (11, 0, 1112, (-24)); (12, 0, 1427, (-24)); (14, 0, 205, (-23)); (15, 0, 2352, (-24));
  (16, 0, 2546, (-24)); (17, 0, 2519, (-24)); (18, 0, 2345, (-24)); (2, 1, 1776, (-24));
  (22, 0, 132, (-23)); (24, 0, 1025, (-24)); (26, 0, 844, (-24)); (28, 0, 724, (-24));
  (3, 1, 63, (-23)); (34, 0, 496, (-24)); (4, 1, 348, (-24)); (5, 1, 201, (-24));
  (7, 1, 101, (-24)); (1, 2, 47, (-24)); (15, 1, 0, 0)].
(** data/standard/interactions.xml, from line 783. *)
Definition tab22 := rows_of [
  (78, (-1), 0, 0); (81, (-1), 15, (-24)); (85, (-1), 4, (-23)); (87, (-1), 7, (-23));
  (9, 0, 11, (-23)); (1, 1, 29, (-23)); (11, 0, 44, (-23)); (12, 0, 51, (-23));
  (13, 0, 56, (-23)); (14, 0, 6, (-22)); (16, 0, 66, (-23)); (17, 0, 67, (-23));
  (18, 0, 63, (-23)); (2, 1, 54, (-23)); (22, 0, 46, (-23)); (24, 0, 39, (-23));
  (26, 0, 33, (-23)); (3, 1, 26, (-23)); (34, 0, 21, (-23)); (4, 1, 17, (-23));
  (5, 1, 15, (-23)); (7, 1, 3, (-23)); (15, 1, 0, 0)].
(** data/standard/interactions.xml, from line 813. *)
Definition tab23 := rows_of [
  (816, (-2), 0, 0); (9, 0, 107, (-24)); (1, 1, 235, (-24)); (11, 0, 369, (-24));
  (12, 0, 496, (-24)); (13, 0, 63, (-23)); (14, 0, 757, (-24)); (15, 0, 838, (-24));
  (16, 0, 764, (-24)); (17, 0, 616, (-24)); (18, 0, 489, (-24)); (19, 0, 409, (-24));
  (2, 1, 362, (-24)); (22, 0, 315, (-24)); (26, 0, 268, (-24)); (3, 1, 228, (-24));
  (34, 0, 194, (-24)); (4, 1, 161, (-24)); (5, 1, 127, (-24)); (7, 1, 67, (-24)); (15, 1, 0, 0)].
(** data/standard/interactions.xml, from line 841. *)
Definition tab24 := rows_of [
  (84, (-1), 0, 0); (9, 0, 67, (-24)); (11, 0, 302, (-24)); (13, 0, 536, (-24));
  (14, 0, 643, (-24)); (15, 0, 697, (-24)); (16, 0, 57, (-23)); (17, 0, 429, (-24));
  (18, 0, 348, (-24)); (19, 0, 308, (-24)); (2, 1, 275, (-24)); (24, 0, 201, (-24));
  (3, 1, 154, (-24)); (4, 1, 124, (-24)); (5, 1, 121, (-24)); (7, 1, 101, (-24));
  (15, 1, 67, (-24)); (5, 2, 0, 0)].
(** data/standard/interactions.xml, from line 866. *)
Definition tab25 := rows_of [
  (855, (-2), 0, 0); (9, 0, 127, (-24)); (14, 0, 1474, (-24)); (15, 0, 1715, (-24));
  (16, 0, 1916, (-24)); (17, 0, 2023, (-24)); (18, 0, 199, (-23)); (19, 0, 1923, (-24));
  (2, 1, 1849, (-24)); (24, 0, 1621, (-24)); (26, 0, 1528, (-24)); (3, 1, 1367, (-24));
  (4, 1, 1065, (-24)); (5, 1, 851, (-24)); (7, 1, 603, (-24)); (1, 2, 402, (-24));
  (15, 1, 268, (-24)); (2, 2, 201, (-24)); (25, 1, 161, (-24)); (3, 2, 134, (-24));
  (5, 2, 82, (-24)); (7, 2, 6, (-23)); (1, 3, 42, (-24))].
(** data/standard/interactions.xml, from line 896. *)
Definition tab26 := rows_of [
  (889, (-2), 0, 0); (9, 0, 13, (-24)); (1, 1, 261, (-24)); (11, 0, 476, (-24));
  (12, 0, 663, (-24)); (13, 0, 784, (-24)); (14, 0, 771, (-24)); (15, 0, 67, (-23));
  (16, 0, 543, (-24)); (17, 0, 442, (-24)); (18, 0, 375, (-24)); (2, 1, 288, (-24));
  (22, 0, 241, (-24)); (3, 1, 154, (-24)); (38, 0, 94, (-24)); (5, 1, 47, (-24)); (15, 1, 0, 0)].
(** data/standard/interactions.xml, from line 920. *)
Definition tab27 := rows_of [
  (1103, (-2), 0, 0); (115, (-1), 405, (-24)); (12, 0, 93, (-23)); (125, (-1), 1965, (-24));
  (13, 0, 435, (-23)); (135, (-1), 736, (-23)); (138, (-1), 93, (-22)); (14, 0, 975, (-23));
  (142, (-1), 96, (-22)); (145, (-1), 945, (-23)); (15, 0, 825, (-23)); (16, 0, 645, (-23));
  (17, 0, 525, (-23)); (18, 0, 45, (-22)); (19, 0, 405, (-23)); (2, 1, 375, (-23));
  (22, 0, 315, (-23)); (24, 0, 2655, (-24)); (26, 0, 225, (-23)); (28, 0, 2085, (-24));
  (3, 1, 1665, (-24)); (36, 0, 117, (-23)); (4, 1, 945, (-24)); (5, 1, 585, (-24));
  (7, 1, 225, (-24)); (1, 2, 23, (-24)); (15, 1, 0, 0)].
(** data/standard/interactions.xml, from line 954. *)
Definition tab28 := rows_of [
  (1187, (-2), 0, 0); (1292, (-2), 496, (-24)); (127, (-1), 7, (-24)); (17, 0, 34, (-24));
  (19, 0, 42, (-24)); (2, 1, 47, (-24)); (22, 0, 52, (-24)); (24, 0, 54, (-24));
  (26, 0, 54, (-24)); (28, 0, 44, (-24)); (3, 1, 34, (-24)); (32, 0, 27, (-24));
  (4, 1, 12, (-24)); (5, 1, 5, (-24)); (15, 1, 0, 0)].
(** data/standard/interactions.xml, from line 976. *)
Definition tab29 := rows_of [
  (1225, (-2), 0, 0); (13, 0, 54, (-24)); (15, 0, 188, (-24)); (16, 0, 248, (-24));
  (17, 0, 302, (-24)); (18, 0, 348, (-24)); (19, 0, 382, (-24)); (2, 1, 389, (-24));
  (22, 0, 342, (-24)); (24, 0, 275, (-24)); (26, 0, 228, (-24)); (3, 1, 154, (-24));
  (36, 0, 114, (-24)); (4, 1, 107, (-24)); (5, 1, 9, (-23)); (7, 1, 68, (-24)); (1, 2, 5, (-23));
  (15, 1, 3, (-23)); (2, 2, 29, (-24)); (3, 2, 2, (-23)); (5, 2, 13, (-24)); (7, 2, 1, (-23));
  (1, 3, 8, (-24))].
(** data/standard/interactions.xml, from line 1006. *)
Definition tab30 := rows_of [
  (13, 0, 0, 0); (14, 0, 81, (-23)); (15, 0, 19, (-22)); (16, 0, 25, (-22)); (17, 0, 42, (-22));
  (18, 0, 52, (-22)); (2, 1, 75, (-22)); (22, 0, 96, (-22)); (25, 0, 119, (-22));
  (3, 1, 148, (-22)); (4, 1, 165, (-22)); (6, 1, 176, (-22)); (8, 1, 168, (-22));
  (1, 2, 158, (-22)); (15, 1, 133, (-22)); (2, 2, 116, (-22)); (25, 1, 105, (-22));
  (3, 2, 96, (-22)); (5, 2, 74, (-22)); (7, 2, 64, (-22)); (1, 3, 53, (-22))].
(** data/standard/interactions.xml, from line 1034. *)
Definition tab31 := rows_of [
  (156, (-1), 0, 0); (16, 0, 21, (-23)); (165, (-1), 46, (-23)); (17, 0, 71, (-23));
  (175, (-1), 98, (-23)); (18, 0, 129, (-23)); (185, (-1), 163, (-23)); (19, 0, 198, (-23));
  (195, (-1), 229, (-23)); (2, 1, 269, (-23)); (21, 0, 342, (-23)); (22, 0, 416, (-23));
  (23, 0, 49, (-22)); (25, 0, 637, (-23)); (3, 1, 103, (-22)); (34, 0, 126, (-22));
  (45, 0, 177, (-22)); (6, 1, 217, (-22)); (75, 0, 238, (-22)); (1, 2, 252, (-22));
  (15, 1, 244, (-22)); (2, 2, 226, (-22)); (3, 2, 191, (-22)); (5, 2, 145, (-22));
  (7, 2, 116, (-22)); (1, 3, 92, (-22))].
(** data/standard/interactions.xml, from line 1144. *)
Definition tab33 := rows_of [
  (58, (-3), 0, 0); (73, (-3), 56, (-42)); (83, (-3), 18, (-41)); (89, (-3), 42, (-42));
  (95, (-3), 84, (-42)); (103, (-3), 18, (-41)); (109, (-3), 0, 0); (15, (-2), 0, 0);
  (17, (-2), 0, 0); (2, (-1), 0, 0); (21, (-2), 356, (-43)); (23, (-2), 0, 0); (32, (-2), 0, 0);
  (33, (-2), 23, (-42)); (35, (-2), 0, 0); (44, (-2), 0, 0); (45, (-2), 145, (-43));
  (47, (-2), 0, 0); (56, (-2), 0, 0); (57, (-2), 11, (-42)); (59, (-2), 0, 0); (68, (-2), 0, 0);
  (69, (-2), 8, (-42)); (71, (-2), 0, 0); (79, (-2), 0, 0); (8, (-1), 7, (-42));
  (82, (-2), 0, 0); (9, (-1), 0, 0); (91, (-2), 55, (-43)); (93, (-2), 0, 0); (102, (-2), 0, 0);
  (103, (-2), 42, (-43)); (105, (-2), 0, 0)].
(** data/standard/interactions.xml, from line 1184. *)
Definition tab34 := rows_of [
  (49, (-1), 0, 0); (538, (-2), 23, (-24)); (586, (-2), 72, (-24)); (61, (-1), 108, (-24));
  (648, (-2), 138, (-24)); (677, (-2), 152, (-24)); (705, (-2), 156, (-24));
  (73, (-1), 148, (-24)); (753, (-2), 131, (-24)); (777, (-2), 11, (-23)); (8, 0, 84, (-24));
  (825, (-2), 54, (-24)); (873, (-2), 28, (-24)); (92, (-1), 14, (-24)); (968, (-2), 8, (-24));
  (1015, (-2), 8, (-24)); (1135, (-2), 8, (-24)); (1, 4, 0, 0)].
(** data/standard/interactions.xml, from line 1209. *)
Definition tab35 := rows_of [
  (7, (-2), 0, 0); (8, (-2), 54, (-24)); (1, (-1), 0, 0); (2, (-1), 0, 0);
  (21, (-2), 216, (-24)); (22, (-2), 0, 0); (32, (-2), 0, 0); (33, (-2), 384, (-24));
  (35, (-2), 0, 0); (44, (-2), 0, 0); (45, (-2), 54, (-23)); (47, (-2), 0, 0); (56, (-2), 0, 0);
  (57, (-2), 672, (-24)); (59, (-2), 0, 0); (68, (-2), 0, 0); (69, (-2), 804, (-24));
  (71, (-2), 0, 0); (79, (-2), 0, 0); (8, (-1), 936, (-24)); (81, (-2), 0, 0); (9, (-1), 0, 0);
  (91, (-2), 84, (-23)); (93, (-2), 0, 0); (102, (-2), 0, 0); (103, (-2), 72, (-23));
  (105, (-2), 0, 0); (113, (-2), 0, 0); (114, (-2), 468, (-24)); (116, (-2), 0, 0);
  (123, (-2), 0, 0); (123, (-2), 6, (-22)); (126, (-2), 0, 0); (134, (-2), 0, 0);
  (135, (-2), 36, (-23)); (137, (-2), 0, 0); (144, (-2), 0, 0); (145, (-2), 24, (-23));
  (147, (-2), 0, 0); (154, (-2), 0, 0); (155, (-2), 12, (-23)); (157, (-2), 0, 0);
  (164, (-2), 0, 0); (165, (-2), 48, (-24)); (167, (-2), 0, 0)].
(** data/standard/interactions.xml, from line 1262. *)
Definition tab36 := rows_of [
  (4, 0, 0, 0); (5, 0, 42, (-23)); (6, 0, 1, (-21)); (7, 0, 176, (-23)); (8, 0, 231, (-23));
  (9, 0, 247, (-23)); (1, 1, 234, (-23)); (11, 0, 186, (-23)); (12, 0, 143, (-23));
  (13, 0, 102, (-23)); (14, 0, 71, (-23)); (15, 0, 4, (-22)); (2, 1, 1, (-22)); (45, 0, 0, 0)].
(** data/standard/interactions.xml, from line 1284. *)
Definition tab37 := rows_of [
  (19, (-2), 0, 0); (2, (-1), 1, (-23)); (21, (-2), 1, (-23)); (23, (-2), 0, 0);
  (32, (-2), 0, 0); (33, (-2), 415, (-23)); (35, (-2), 0, 0); (44, (-2), 0, 0);
  (45, (-2), 135, (-22)); (47, (-2), 0, 0); (56, (-2), 0, 0); (57, (-2), 185, (-22));
  (59, (-2), 0, 0); (68, (-2), 0, 0); (69, (-2), 165, (-22)); (71, (-2), 0, 0); (79, (-2), 0, 0);
  (8, (-1), 1, (-20)); (82, (-2), 0, 0); (9, (-1), 0, 0); (91, (-2), 6, (-21)); (93, (-2), 0, 0);
  (102, (-2), 0, 0); (103, (-2), 285, (-23)); (105, (-2), 0, 0); (113, (-2), 0, 0);
  (114, (-2), 1125, (-24)); (116, (-2), 0, 0); (123, (-2), 0, 0); (124, (-2), 475, (-24));
  (126, (-2), 0, 0); (134, (-2), 0, 0); (135, (-2), 165, (-24)); (137, (-2), 0, 0);
  (144, (-2), 0, 0); (145, (-2), 55, (-24)); (147, (-2), 0, 0); (154, (-2), 0, 0);
  (155, (-2), 2, (-23)); (157, (-2), 0, 0); (163, (-2), 0, 0); (165, (-2), 7, (-24));
  (167, (-2), 0, 0)].
(** data/standard/interactions.xml, from line 1335. *)
Definition tab38 := rows_of [
  (56, (-2), 0, 0); (57, (-2), 14, (-22)); (59, (-2), 0, 0); (68, (-2), 0, 0);
  (69, (-2), 415, (-23)); (71, (-2), 0, 0); (79, (-2), 0, 0); (8, (-1), 535, (-23));
  (82, (-2), 0, 0); (9, (-1), 0, 0); (91, (-2), 465, (-23)); (93, (-2), 0, 0); (102, (-2), 0, 0);
  (103, (-2), 315, (-23)); (105, (-2), 0, 0); (113, (-2), 0, 0); (114, (-2), 2, (-21));
  (116, (-2), 0, 0); (123, (-2), 0, 0); (124, (-2), 95, (-23)); (126, (-2), 0, 0);
  (134, (-2), 0, 0); (135, (-2), 4, (-22)); (137, (-2), 0, 0); (144, (-2), 0, 0);
  (145, (-2), 185, (-24)); (147, (-2), 0, 0); (154, (-2), 0, 0); (155, (-2), 85, (-24));
  (157, (-2), 0, 0); (163, (-2), 0, 0); (165, (-2), 34, (-24)); (167, (-2), 0, 0)].
(** data/standard/interactions.xml, from line 1376. *)
Definition tab39 := rows_of [
  (4, 0, 0, 0); (5, 0, 28, (-23)); (6, 0, 4, (-22)); (7, 0, 73, (-23)); (8, 0, 94, (-23));
  (9, 0, 11, (-22)); (1, 1, 109, (-23)); (11, 0, 93, (-23)); (12, 0, 73, (-23));
  (13, 0, 51, (-23)); (14, 0, 28, (-23)); (15, 0, 13, (-23)); (2, 1, 5, (-23)); (45, 0, 0, 0)].
(** data/standard/interactions.xml, from line 1398. *)
Definition tab40 := rows_of [
  (68, (-2), 0, 0); (69, (-2), 37, (-24)); (71, (-2), 0, 0); (79, (-2), 0, 0);
  (8, (-1), 215, (-24)); (82, (-2), 0, 0); (9, (-1), 0, 0); (91, (-2), 9, (-22));
  (93, (-2), 0, 0); (102, (-2), 0, 0); (103, (-2), 12, (-22)); (105, (-2), 0, 0);
  (113, (-2), 0, 0); (114, (-2), 115, (-23)); (116, (-2), 0, 0); (123, (-2), 0, 0);
  (124, (-2), 95, (-23)); (126, (-2), 0, 0); (134, (-2), 0, 0); (135, (-2), 55, (-23));
  (137, (-2), 0, 0); (144, (-2), 0, 0); (145, (-2), 3, (-22)); (147, (-2), 0, 0);
  (154, (-2), 0, 0); (155, (-2), 165, (-24)); (157, (-2), 0, 0); (163, (-2), 0, 0);
  (165, (-2), 8, (-23)); (167, (-2), 0, 0); (35, (-1), 0, 0); (4, 0, 0, 0); (5, 0, 0, 0);
  (6, 0, 125, (-24)); (7, 0, 363, (-24)); (8, 0, 588, (-24)); (9, 0, 75, (-23));
  (1, 1, 675, (-24)); (11, 0, 563, (-24)); (12, 0, 475, (-24)); (13, 0, 3, (-22));
  (14, 0, 175, (-24)); (15, 0, 88, (-24)); (2, 1, 0, 0)].
(** data/standard/interactions.xml, from line 1450. *)
Definition tab41 := rows_of [
  (79, (-2), 0, 0); (8, (-1), 15, (-24)); (82, (-2), 0, 0); (9, (-1), 0, 0);
  (91, (-2), 55, (-24)); (93, (-2), 0, 0); (102, (-2), 0, 0); (103, (-2), 4, (-24));
  (105, (-2), 0, 0); (113, (-2), 0, 0); (114, (-2), 165, (-24)); (116, (-2), 0, 0);
  (123, (-2), 0, 0); (124, (-2), 315, (-24)); (126, (-2), 0, 0); (134, (-2), 0, 0);
  (135, (-2), 335, (-24)); (137, (-2), 0, 0); (144, (-2), 0, 0); (145, (-2), 285, (-24));
  (147, (-2), 0, 0); (154, (-2), 0, 0); (155, (-2), 215, (-24)); (157, (-2), 0, 0);
  (163, (-2), 0, 0); (165, (-2), 165, (-24)); (167, (-2), 0, 0); (6, 0, 0, 0);
  (7, 0, 275, (-24)); (8, 0, 35, (-23)); (9, 0, 413, (-24)); (1, 1, 463, (-24));
  (11, 0, 313, (-24)); (12, 0, 25, (-23)); (13, 0, 175, (-24)); (14, 0, 88, (-24)); (15, 0, 0, 0)].
(** data/standard/interactions.xml, from line 1495. *)
Definition tab42 := rows_of [
  (977, (-3), 0, 0); (15, (-1), 58, (-24)); (2, 0, 153, (-24)); (3, 0, 38, (-23));
  (35, (-1), 49, (-23)); (4, 0, 57, (-23)); (5, 0, 74, (-23)); (562, (-2), 825, (-24));
  (591, (-2), 862, (-24)); (619, (-2), 888, (-24)); (653, (-2), 908, (-24));
  (699, (-2), 914, (-24)); (761, (-2), 891, (-24)); (789, (-2), 863, (-24));
  (896, (-2), 768, (-24)); (1004, (-2), 679, (-24)); (13, 0, 527, (-24));
  (151, (-1), 455, (-24)); (175, (-1), 387, (-24)); (205, (-1), 324, (-24));
  (249, (-1), 256, (-24)); (309, (-1), 196, (-24)); (41, 0, 137, (-24)); (45, 0, 112, (-24));
  (1, 2, 0, 0)].
(** data/standard/interactions.xml, from line 1527. *)
Definition tab43 := rows_of [
  (1627, (-3), 0, 0); (2, 0, 26, (-24)); (3, 0, 97, (-24)); (35, (-1), 133, (-24));
  (4, 0, 149, (-24)); (5, 0, 182, (-24)); (569, (-2), 194, (-24)); (654, (-2), 194, (-24));
  (734, (-2), 191, (-24)); (841, (-2), 183, (-24)); (926, (-2), 174, (-24)); (1, 1, 16, (-23));
  (13, 0, 131, (-24)); (149, (-1), 117, (-24)); (17, 0, 103, (-24)); (194, (-1), 92, (-24));
  (207, (-1), 86, (-24)); (225, (-1), 8, (-23)); (24, 0, 72, (-24)); (28, 0, 61, (-24));
  (351, (-1), 47, (-24)); (419, (-1), 34, (-24)); (451, (-1), 31, (-24)); (1, 2, 0, 0)].
(** data/standard/interactions.xml, from line 1558. *)
Definition tab44 := rows_of [
  (45, (-1), 0, 0); (48, (-1), 3, (-23)); (5, 0, 9, (-23)); (55, (-1), 3, (-22));
  (6, 0, 65, (-23)); (65, (-1), 85, (-23)); (7, 0, 95, (-23)); (75, (-1), 1, (-21));
  (8, 0, 1, (-21)); (9, 0, 85, (-23)); (1, 1, 7, (-22)); (12, 0, 45, (-23)); (15, 0, 0, 0)].
(** data/standard/interactions.xml, from line 1578. *)
Definition tab45 := rows_of [
  (6, 0, 0, 0); (7, 0, 15, (-22)); (78, (-1), 23, (-22)); (9, 0, 23, (-22)); (1, 1, 21, (-22));
  (12, 0, 165, (-23)); (15, 0, 105, (-23)); (17, 0, 65, (-23)); (2, 1, 475, (-24));
  (45, 0, 19, (-23)); (1, 2, 0, 0)].
(** data/standard/interactions.xml, from line 1596. *)
Definition tab46 := rows_of [
  (84, (-1), 0, 0); (94, (-1), 1, (-20)); (3, 1, 12, (-21)); (5, 1, 117, (-22));
  (1, 2, 94, (-22)); (15, 1, 32, (-22)); (2, 2, 27, (-22)); (3, 2, 17, (-22));
  (5, 2, 109, (-23)); (7, 2, 8, (-22)); (1, 3, 58, (-23))].
(** data/standard/interactions.xml, from line 1614. *)
Definition tab47 := rows_of [
  (997, (-2), 0, 0); (2, 1, 13, (-23)); (3, 1, 26, (-23)); (4, 1, 4, (-22)); (5, 1, 5, (-22));
  (6, 1, 6, (-22)); (7, 1, 65, (-23)); (8, 1, 7, (-22)); (1, 2, 7, (-22)); (12, 1, 5, (-22));
  (15, 1, 4, (-22)); (17, 1, 35, (-23)); (2, 2, 3, (-22)); (3, 2, 2, (-22)); (5, 2, 12, (-23));
  (7, 2, 8, (-23)); (1, 3, 5, (-23))].
(** data/standard/interactions.xml, from line 1638. *)
Definition tab48 := rows_of [
  (1206, (-2), 0, 0); (13, 0, 25, (-23)); (18, 0, 25, (-22)); (28, 0, 1024, (-23));
  (38, 0, 1775, (-23)); (48, 0, 207, (-22)); (58, 0, 241, (-22)); (68, 0, 261, (-22));
  (78, 0, 281, (-22)); (88, 0, 284, (-22)); (1, 2, 29, (-21)); (15, 1, 27, (-21));
  (2, 2, 25, (-21)); (3, 2, 217, (-22)); (5, 2, 166, (-22)); (7, 2, 135, (-22));
  (1, 3, 104, (-22))].
(** data/standard/interactions.xml, from line 1738. *)
Definition tab50 := rows_of [
  (44, (-3), 0, 0); (47, (-3), 1863, (-25)); (5, (-2), 2754, (-25)); (55, (-3), 3564, (-25));
  (6, (-2), 42525, (-26)); (7, (-2), 53865, (-26)); (9, (-2), 6885, (-25));
  (11, (-2), 8019, (-25)); (2, (-1), 1215, (-24)); (4, (-1), 21254, (-25));
  (6, (-1), 30893, (-25)); (8, (-1), 45554, (-25)); (1, 0, 6075, (-24)); (2, 0, 13263, (-24));
  (3, 0, 18225, (-24)); (4, 0, 18225, (-24)); (6, 0, 1539, (-23)); (1, 1, 11745, (-24));
  (2, 1, 66825, (-25)); (3, 1, 50625, (-25)); (5, 1, 34425, (-25)); (7, 1, 2673, (-24));
  (1, 2, 2025, (-24)); (125, 0, 17204, (-25)); (15, 1, 14783, (-25)); (5, 2, 5265, (-25));
  (1, 3, 2835, (-25))].
(** data/standard/interactions.xml, from line 1773. *)
Definition tab51 := rows_of [
  (73, (-3), 0, 0); (75, (-3), 10125, (-26)); (8, (-2), 1728, (-25)); (85, (-3), 21726, (-26));
  (9, (-2), 2538, (-25)); (1, (-1), 29826, (-26)); (12, (-2), 38466, (-26));
  (15, (-2), 47646, (-26)); (2, (-1), 6075, (-25)); (3, (-1), 891, (-24));
  (4, (-1), 11947, (-25)); (5, (-1), 15187, (-25)); (7, (-1), 22266, (-25));
  (1, 0, 35442, (-25)); (14, (-1), 50616, (-25)); (2, 0, 75942, (-25)); (27, (-1), 10125, (-24));
  (33, (-1), 11137, (-24)); (5, 0, 10125, (-24)); (7, 0, 88092, (-25)); (1, 1, 70866, (-25));
  (2, 1, 405, (-23)); (3, 1, 30366, (-25)); (5, 1, 20646, (-25)); (1, 2, 11745, (-25));
  (125, 0, 100296, (-26)); (15, 1, 8505, (-25)); (5, 2, 31446, (-26)); (1, 3, 18216, (-26))].
(** data/standard/interactions.xml, from line 1810. *)
Definition tab52 := rows_of [
  (516, (-3), 0, 0); (7, (-1), 2, (-22)); (1, 0, 6, (-22)); (15, (-1), 2, (-21));
  (2, 0, 4, (-21)); (25, (-1), 49, (-22)); (3, 0, 51, (-22)); (33, (-1), 5, (-21));
  (4, 0, 44, (-22)); (5, 0, 36, (-22)); (7, 0, 22, (-22)); (8, 0, 16, (-22)); (1, 1, 9, (-22));
  (12, 0, 6, (-22)); (16, 0, 2, (-22)); (5, 1, 9, (-23)); (1, 2, 8, (-23)); (15, 1, 8, (-23));
  (2, 2, 8, (-23)); (3, 2, 7, (-23)); (5, 2, 7, (-23)); (7, 2, 7, (-23)); (1, 3, 6, (-23))].
(** data/standard/interactions.xml, from line 1841. *)
Definition tab53 := rows_of [
  (13, (-1), 0, 0); (15, (-1), 3, (-23)); (18, (-1), 8, (-23)); (215, (-2), 18, (-23));
  (23, (-1), 24, (-23)); (25, (-1), 29, (-23)); (3, 0, 36, (-23)); (36, (-1), 38, (-23));
  (4, 0, 38, (-23)); (6, 0, 3, (-22)); (9, 0, 17, (-23)); (12, 0, 8, (-23)); (16, 0, 0, 0)].
(** data/standard/interactions.xml, from line 1863. *)
Definition tab54 := rows_of [
  (15, (-1), 0, 0); (18, (-1), 3, (-23)); (19, (-1), 1, (-23)); (2, 0, 13, (-24));
  (22, (-1), 2, (-23)); (25, (-1), 29, (-24)); (3, 0, 38, (-24)); (33, (-1), 41, (-24));
  (37, (-1), 41, (-24)); (5, 0, 34, (-24)); (7, 0, 23, (-24)); (1, 1, 12, (-24));
  (12, 0, 6, (-24)); (14, 0, 1, (-24)); (16, 0, 0, 0)].
(** data/standard/interactions.xml, from line 1886. *)
Definition tab55 := rows_of [
  (89, (-1), 0, 0); (1, 1, 1322, (-24)); (12, 0, 3438, (-24)); (17, 0, 3835, (-24));
  (2, 1, 3306, (-24)); (25, 0, 238, (-23)); (3, 1, 1587, (-24)); (4, 1, 6612, (-25));
  (5, 1, 3312, (-25)); (6, 1, 1587, (-25)); (8, 1, 4025, (-26)); (1, 2, 0, 0)].
(** data/standard/interactions.xml, from line 1906. *)
Definition tab56 := rows_of [
  (113, (-1), 0, 0); (117, (-1), 1, (-21)); (125, (-1), 9, (-22)); (16, 0, 2, (-21));
  (2, 1, 3, (-21)); (25, 0, 41, (-22)); (3, 1, 45, (-22)); (4, 1, 48, (-22)); (5, 1, 47, (-22));
  (7, 1, 42, (-22)); (1, 2, 38, (-22)); (15, 1, 32, (-22)); (2, 2, 28, (-22)); (3, 2, 23, (-22));
  (5, 2, 17, (-22)); (7, 2, 135, (-23)); (1, 3, 1, (-21))].
(** data/standard/interactions.xml, from line 1931. *)
Definition tab57 := rows_of [
  (1175, (-2), 0, 0); (1188, (-2), 8, (-22)); (1225, (-2), 14, (-22)); (129, (-1), 12, (-22));
  (135, (-1), 14, (-22)); (155, (-1), 2, (-21)); (2, 1, 12, (-22)); (25, 0, 72, (-23));
  (3, 1, 43, (-23)); (35, 0, 3, (-22)); (4, 1, 2, (-22)); (5, 1, 104, (-24)); (6, 1, 7, (-23));
  (7, 1, 4, (-23)); (1, 2, 14, (-24)); (15, 1, 0, 0)].
(** data/standard/interactions.xml, from line 1955. *)
Definition tab58 := rows_of [
  (118, (-1), 0, 0); (13, 0, 11, (-22)); (14, 0, 12, (-22)); (15, 0, 122, (-23));
  (16, 0, 121, (-23)); (17, 0, 116, (-23)); (2, 1, 85, (-23)); (25, 0, 55, (-23));
  (3, 1, 35, (-23)); (5, 1, 8, (-23)); (7, 1, 0, 0)].
(** data/standard/interactions.xml, from line 1974. *)
Definition tab59 := rows_of [
  (124, (-1), 0, 0); (13, 0, 3, (-22)); (14, 0, 1, (-21)); (16, 0, 18, (-22));
  (18, 0, 23, (-22)); (22, 0, 32, (-22)); (3, 1, 39, (-22)); (4, 1, 4, (-21)); (6, 1, 4, (-21));
  (8, 1, 38, (-22)); (1, 2, 36, (-22)); (15, 1, 3, (-21)); (2, 2, 26, (-22)); (3, 2, 21, (-22));
  (5, 2, 16, (-22)); (7, 2, 12, (-22)); (1, 3, 9, (-22))].
(** data/standard/interactions.xml, from line 1999. *)
Definition tab60 := rows_of [
  (14, 0, 0, 0); (156, (-1), 41, (-23)); (2, 1, 31, (-23)); (25, 0, 2, (-22)); (3, 1, 12, (-23));
  (4, 1, 53, (-24)); (5, 1, 28, (-24)); (7, 1, 1, (-23)); (1, 2, 4, (-24)); (15, 1, 0, 0)].
(** data/standard/interactions.xml, from line 2017. *)
Definition tab61 := rows_of [
  (17, 0, 0, 0); (2, 1, 5, (-22)); (25, 0, 7, (-22)); (3, 1, 95, (-23)); (35, 0, 105, (-23));
  (4, 1, 115, (-23)); (5, 1, 125, (-23)); (6, 1, 13, (-22)); (7, 1, 13, (-22));
  (1, 2, 125, (-23)); (15, 1, 11, (-22)); (2, 2, 9, (-22)); (3, 2, 7, (-22)); (5, 2, 5, (-22));
  (7, 2, 4, (-22)); (1, 3, 36, (-23))].
(** data/standard/interactions.xml, from line 2042. *)
Definition tab62 := rows_of [
  (16, 0, 0, 0); (17, 0, 13, (-23)); (18, 0, 3, (-22)); (2, 1, 63, (-23)); (22, 0, 95, (-23));
  (3, 1, 19, (-22)); (4, 1, 22, (-22)); (6, 1, 24, (-22)); (8, 1, 23, (-22)); (1, 2, 21, (-22));
  (15, 1, 175, (-23)); (2, 2, 15, (-22)); (3, 2, 12, (-22)); (5, 2, 85, (-23));
  (7, 2, 67, (-23)); (1, 3, 52, (-23))].
(** data/standard/interactions.xml, from line 2067. *)
Definition tab63 := rows_of [
  (154, (-1), 0, 0); (195, (-1), 249, (-23)); (21, 0, 336, (-23)); (23, 0, 439, (-23));
  (25, 0, 524, (-23)); (28, 0, 631, (-23)); (32, 0, 73, (-22)); (4, 1, 865, (-23));
  (5, 1, 94, (-22)); (7, 1, 967, (-23)); (1, 2, 932, (-23)); (15, 1, 8, (-21));
  (2, 2, 712, (-23)); (3, 2, 571, (-23)); (5, 2, 404, (-23)); (7, 2, 316, (-23));
  (1, 3, 237, (-23))].
(** data/standard/interactions.xml, from line 2091. *)
Definition tab64 := rows_of [
  (166, (-1), 0, 0); (18, 0, 45, (-24)); (19, 0, 56, (-24)); (2, 1, 58, (-24));
  (25, 0, 6, (-23)); (3, 1, 68, (-24)); (4, 1, 8, (-23)); (5, 1, 92, (-24)); (6, 1, 94, (-24));
  (8, 1, 94, (-24)); (1, 2, 87, (-24)); (15, 1, 72, (-24)); (2, 2, 6, (-23)); (3, 2, 43, (-24));
  (5, 2, 28, (-24)); (7, 2, 21, (-24)); (1, 3, 15, (-24)); (15, 2, 11, (-24)); (2, 3, 8, (-24));
  (3, 3, 6, (-24)); (5, 3, 4, (-24)); (7, 3, 3, (-24)); (1, 4, 2, (-24))].
(** data/standard/interactions.xml, from line 2145. *)
Definition tab66 := rows_of [
  (69, (-3), 0, 0); (691, (-4), 11, (-23)); (8, (-2), 88, (-23)); (1, (-1), 22, (-22));
  (15, (-2), 77, (-22)); (2, (-1), 143, (-22)); (3, (-1), 22, (-21)); (5, (-1), 22, (-21));
  (6, (-1), 22, (-21)); (9, (-1), 209, (-22)); (15, (-1), 165, (-22)); (2, 0, 11, (-21));
  (3, 0, 33, (-22)); (4, 0, 11, (-22)); (5, 0, 11, (-23)); (6, 0, 0, 0)].
(** data/standard/interactions.xml, from line 2169. *)
Definition tab67 := rows_of [
  (25, (-1), 0, 0); (27, (-1), 48, (-22)); (3, 0, 672, (-23)); (4, 0, 128, (-22));
  (46, (-1), 1568, (-23)); (6, 0, 16, (-21)); (64, (-1), 1536, (-23)); (7, 0, 112, (-22));
  (9, 0, 48, (-22)); (104, (-1), 32, (-22)); (13, 0, 16, (-22)); (15, 0, 0, 0)].
(** data/standard/interactions.xml, from line 2189. *)
Definition tab68 := rows_of [
  (312, (-2), 0, 0); (42, (-1), 345, (-23)); (5, 0, 598, (-23)); (6, 0, 989, (-23));
  (7, 0, 1541, (-23)); (8, 0, 1978, (-23)); (9, 0, 2208, (-23)); (1, 1, 23, (-21));
  (12, 0, 207, (-22)); (15, 0, 184, (-22)); (2, 1, 1725, (-23)); (3, 1, 161, (-22));
  (4, 1, 138, (-22)); (6, 1, 115, (-22)); (1, 2, 92, (-22))].
(** data/standard/interactions.xml, from line 2212. *)
Definition tab69 := rows_of [
  (925, (-2), 0, 0); (13, 0, 3, (-21)); (16, 0, 45, (-22)); (2, 1, 75, (-22));
  (24, 0, 105, (-22)); (27, 0, 144, (-22)); (3, 1, 15, (-21)); (5, 1, 135, (-22));
  (1, 2, 12, (-21))].
(** data/standard/interactions.xml, from line 2228. *)
Definition tab70 := rows_of [
  (0, 0, 2016, (-23)); (1, (-1), 8, (-21)); (2, (-1), 245, (-23)); (3, (-1), 62, (-23));
  (4, (-1), 2, (-22)); (5, (-1), 98, (-24)); (6, (-1), 68, (-24)); (7, (-1), 63, (-24));
  (9, (-1), 5, (-23)); (1, 0, 42, (-24)); (12, (-1), 48, (-24)); (14, (-1), 59, (-24));
  (18, (-1), 132, (-24)); (22, (-1), 242, (-24)); (24, (-1), 277, (-24)); (26, (-1), 279, (-24));
  (28, (-1), 249, (-24)); (3, 0, 192, (-24)); (34, (-1), 106, (-24)); (36, (-1), 95, (-24));
  (38, (-1), 105, (-24)); (4, 0, 129, (-24)); (44, (-1), 209, (-24)); (46, (-1), 257, (-24));
  (5, 0, 363, (-24)); (54, (-1), 446, (-24)); (58, (-1), 484, (-24)); (62, (-1), 462, (-24));
  (66, (-1), 399, (-24)); (7, 0, 301, (-24)); (78, (-1), 1, (-22)); (8, 0, 699, (-25));
  (88, (-1), 395, (-25)); (92, (-1), 38, (-24)); (1, 1, 38, (-24)); (11, 0, 344, (-25));
  (114, (-1), 316, (-25)); (118, (-1), 328, (-25)); (122, (-1), 44, (-24));
  (128, (-1), 72, (-24)); (13, 0, 8, (-23)); (16, 0, 18, (-23)); (2, 1, 258, (-24));
  (3, 1, 108, (-24)); (42, 0, 4, (-23)); (5, 1, 76, (-24)); (6, 1, 176, (-24));
  (7, 1, 272, (-24)); (79, 0, 428, (-24)); (1, 2, 3, (-22))].
(** data/standard/interactions.xml, from line 2285. *)
Definition tab71 := rows_of [
  (1149, (-2), 0, 0); (116, (-1), 5, (-22)); (12, 0, 927, (-24)); (124, (-1), 146, (-23));
  (128, (-1), 192, (-23)); (132, (-1), 283, (-23)); (134, (-1), 317, (-23));
  (138, (-1), 414, (-23)); (142, (-1), 521, (-23)); (146, (-1), 631, (-23)); (15, 0, 747, (-23));
  (154, (-1), 859, (-23)); (158, (-1), 979, (-23)); (162, (-1), 109, (-22));
  (166, (-1), 121, (-22)); (17, 0, 132, (-22)); (174, (-1), 143, (-22)); (178, (-1), 154, (-22));
  (182, (-1), 164, (-22)); (186, (-1), 175, (-22)); (19, 0, 186, (-22)); (194, (-1), 195, (-22));
  (198, (-1), 207, (-22)); (2, 1, 212, (-22)); (22, 0, 256, (-22)); (25, 0, 318, (-22));
  (27, 0, 351, (-22)); (4, 1, 461, (-22)); (5, 1, 506, (-22)); (6, 1, 539, (-22));
  (62, 0, 543, (-22)); (64, 0, 5468, (-23)); (7, 1, 553, (-22)); (8, 1, 558, (-22));
  (1, 2, 5524, (-23))].
(** data/standard/interactions.xml, from line 2370. *)
Definition tab73 := rows_of [
  (11, (-2), 0, 0); (2, (-1), 64, (-22)); (3, (-1), 85, (-22)); (4, (-1), 86, (-22));
  (5, (-1), 77, (-22)); (6, (-1), 63, (-22)); (7, (-1), 5, (-21)); (8, (-1), 39, (-22));
  (9, (-1), 3, (-21)); (1, 0, 23, (-22)); (11, (-1), 18, (-22)); (12, (-1), 14, (-22));
  (13, (-1), 12, (-22)); (14, (-1), 95, (-23)); (15, (-1), 79, (-23)); (16, (-1), 66, (-23));
  (17, (-1), 57, (-23)); (18, (-1), 49, (-23)); (19, (-1), 43, (-23)); (2, 0, 398, (-24));
  (21, (-1), 33, (-23)); (22, (-1), 3, (-22)); (23, (-1), 27, (-23)); (24, (-1), 24, (-23));
  (25, (-1), 22, (-23)); (26, (-1), 2, (-22)); (27, (-1), 18, (-23)); (28, (-1), 17, (-23));
  (29, (-1), 15, (-23)); (3, 0, 14, (-23)); (31, (-1), 13, (-23)); (32, (-1), 12, (-23));
  (33, (-1), 11, (-23)); (34, (-1), 11, (-23)); (35, (-1), 1, (-22)); (36, (-1), 94, (-24));
  (37, (-1), 89, (-24)); (38, (-1), 84, (-24)); (39, (-1), 78, (-24)); (4, 0, 74, (-24));
  (41, (-1), 71, (-24)); (42, (-1), 67, (-24)); (43, (-1), 63, (-24)); (44, (-1), 6, (-23));
  (45, (-1), 57, (-24)); (46, (-1), 54, (-24)); (47, (-1), 52, (-24)); (48, (-1), 5, (-23));
  (49, (-1), 48, (-24)); (5, 0, 0, 0)].
(** data/standard/interactions.xml, from line 2428. *)
Definition tab74 := rows_of [
  (219, (-3), 0, 0); (3, (-1), 82, (-22)); (4, (-1), 99, (-22)); (5, (-1), 97, (-22));
  (6, (-1), 85, (-22)); (7, (-1), 7, (-21)); (8, (-1), 55, (-22)); (9, (-1), 43, (-22));
  (1, 0, 33, (-22)); (11, (-1), 26, (-22)); (12, (-1), 21, (-22)); (13, (-1), 16, (-22));
  (14, (-1), 13, (-22)); (15, (-1), 11, (-22)); (16, (-1), 93, (-23)); (17, (-1), 8, (-22));
  (18, (-1), 69, (-23)); (19, (-1), 6, (-22)); (2, 0, 53, (-23)); (21, (-1), 47, (-23));
  (22, (-1), 42, (-23)); (23, (-1), 37, (-23)); (24, (-1), 34, (-23)); (25, (-1), 31, (-23));
  (26, (-1), 28, (-23)); (27, (-1), 26, (-23)); (28, (-1), 24, (-23)); (29, (-1), 22, (-23));
  (3, 0, 2, (-22)); (31, (-1), 19, (-23)); (32, (-1), 17, (-23)); (33, (-1), 16, (-23));
  (34, (-1), 15, (-23)); (35, (-1), 14, (-23)); (36, (-1), 13, (-23)); (37, (-1), 12, (-23));
  (38, (-1), 11, (-23)); (39, (-1), 11, (-23)); (4, 0, 1, (-22)); (41, (-1), 1, (-22));
  (42, (-1), 94, (-24)); (43, (-1), 89, (-24)); (44, (-1), 84, (-24)); (45, (-1), 81, (-24));
  (46, (-1), 77, (-24)); (47, (-1), 73, (-24)); (48, (-1), 7, (-23)); (49, (-1), 67, (-24));
  (5, 0, 0, 0)].
(** data/standard/interactions.xml, from line 2485. *)
Definition tab75 := rows_of [
  (34, (-2), 0, 0); (4, (-1), 52, (-22)); (5, (-1), 63, (-22)); (6, (-1), 61, (-22));
  (7, (-1), 53, (-22)); (8, (-1), 43, (-22)); (1, 0, 27, (-22)); (12, (-1), 16, (-22));
  (14, (-1), 1, (-21)); (16, (-1), 69, (-23)); (18, (-1), 5, (-22)); (2, 0, 39, (-23));
  (22, (-1), 31, (-23)); (24, (-1), 25, (-23)); (26, (-1), 21, (-23)); (28, (-1), 17, (-23));
  (3, 0, 15, (-23)); (32, (-1), 13, (-23)); (34, (-1), 11, (-23)); (36, (-1), 1, (-22));
  (38, (-1), 88, (-24)); (4, 0, 79, (-24)); (42, (-1), 71, (-24)); (44, (-1), 64, (-24));
  (46, (-1), 58, (-24)); (48, (-1), 53, (-24)); (5, 0, 0, 0)].
(** data/standard/interactions.xml, from line 2521. *)
Definition tab76 := rows_of [
  (421, (-3), 0, 0); (5, (-1), 18, (-22)); (6, (-1), 21, (-22)); (7, (-1), 21, (-22));
  (8, (-1), 18, (-22)); (9, (-1), 15, (-22)); (1, 0, 11, (-22)); (12, (-1), 6, (-22));
  (14, (-1), 34, (-23)); (16, (-1), 23, (-23)); (18, (-1), 16, (-23)); (2, 0, 13, (-23));
  (22, (-1), 1, (-23)); (25, (-1), 78, (-24)); (3, 0, 52, (-24)); (35, (-1), 38, (-24));
  (4, 0, 28, (-24)); (45, (-1), 22, (-24)); (49, (-1), 18, (-24)); (5, 0, 0, 0)].
(** data/standard/interactions.xml, from line 2549. *)
Definition tab77 := rows_of [
  (316, (-2), 0, 0); (4, 0, 65, (-23)); (42, (-1), 1, (-21)); (46, (-1), 145, (-23));
  (56, (-1), 2, (-21)); (6, 0, 22, (-22)); (7, 0, 23, (-22)); (8, 0, 22, (-22));
  (1, 1, 2, (-21)); (15, 0, 14, (-22)); (2, 1, 107, (-23)); (27, 0, 8, (-22)); (34, 0, 6, (-22));
  (4, 1, 48, (-23)); (1, 2, 24, (-23)); (2, 2, 137, (-24)); (5, 2, 64, (-24)); (1, 3, 35, (-24))].
(** data/standard/interactions.xml, from line 2575. *)
Definition tab78 := rows_of [
  (434, (-2), 0, 0); (5, 0, 4, (-22)); (6, 0, 6, (-22)); (7, 0, 74, (-23)); (8, 0, 8, (-22));
  (1, 1, 74, (-23)); (147, (-1), 6, (-22)); (2, 1, 47, (-23)); (25, 0, 4, (-22));
  (4, 1, 25, (-23)); (54, 0, 2, (-22)); (6, 1, 17, (-23)); (8, 1, 13, (-23)); (1, 2, 1, (-22));
  (2, 2, 57, (-24)); (5, 2, 27, (-24)); (1, 3, 15, (-24))].
(** data/standard/interactions.xml, from line 2599. *)
Definition tab79 := rows_of [
  (1157, (-2), 0, 0); (1173, (-2), 102, (-24)); (1262, (-2), 301, (-24)); (14, 0, 791, (-24));
  (1699, (-2), 2322, (-24)); (1869, (-2), 3006, (-24)); (2164, (-2), 3729, (-24));
  (2584, (-2), 4447, (-24)); (3107, (-2), 5015, (-24)); (3948, (-2), 5237, (-24));
  (5188, (-2), 5098, (-24)); (7843, (-2), 4768, (-24)); (1424, (-1), 3733, (-24));
  (2346, (-1), 2824, (-24)); (3959, (-1), 2039, (-24)); (9594, (-1), 1192, (-24))].
(** data/standard/interactions.xml, from line 2623. *)
Definition tab80 := rows_of [
  (1308, (-2), 0, 0); (1925, (-2), 1035, (-25)); (204, (-1), 1439, (-25));
  (2377, (-2), 2489, (-25)); (2861, (-2), 3961, (-25)); (3463, (-2), 5524, (-25));
  (43, 0, 6658, (-25)); (5343, (-2), 7215, (-25)); (6822, (-2), 7397, (-25));
  (9055, (-2), 7343, (-25)); (1214, (-1), 6928, (-25)); (1799, (-1), 588, (-24));
  (2836, (-1), 4416, (-25)); (4268, (-1), 33, (-23)); (9695, (-1), 1759, (-25))].
(** data/standard/interactions.xml, from line 2646. *)
Definition tab81 := rows_of [
  (1569, (-2), 0, 0); (1654, (-2), 103, (-24)); (1656, (-2), 15, (-23));
  (1683, (-2), 255, (-24)); (1739, (-2), 413, (-24)); (182, (-1), 661, (-24));
  (1961, (-2), 106, (-23)); (2176, (-2), 172, (-23)); (2547, (-2), 302, (-23));
  (2861, (-2), 4355, (-24)); (3536, (-2), 6281, (-24)); (4254, (-2), 7829, (-24));
  (5208, (-2), 9339, (-24)); (6663, (-2), 1066, (-23)); (9399, (-2), 1181, (-23));
  (1182, (-1), 1224, (-23)); (1765, (-1), 1177, (-23)); (2687, (-1), 1038, (-23));
  (3811, (-1), 8647, (-24)); (5073, (-1), 7206, (-24)); (7197, (-1), 572, (-23));
  (9373, (-1), 4734, (-24))].
(** data/standard/interactions.xml, from line 2676. *)
Definition tab82 := rows_of [
  (0, 0, 8, (-19)); (1, (-2), 444, (-21)); (2, (-2), 247, (-21)); (3, (-2), 137, (-21));
  (4, (-2), 82, (-21)); (5, (-2), 74, (-21)); (7, (-2), 71, (-21)); (1, (-1), 65, (-21));
  (15, (-2), 545, (-22)); (2, (-1), 48, (-21)); (25, (-2), 425, (-22)); (3, (-1), 365, (-22));
  (35, (-2), 31, (-21)); (4, (-1), 265, (-22)); (45, (-2), 225, (-22)); (5, (-1), 192, (-22));
  (6, (-1), 134, (-22)); (7, (-1), 94, (-22)); (8, (-1), 655, (-23)); (9, (-1), 455, (-23));
  (1, 0, 32, (-22)); (12, (-1), 153, (-23)); (14, (-1), 75, (-23)); (16, (-1), 365, (-24));
  (18, (-1), 215, (-24)); (2, 0, 142, (-24)); (22, (-1), 118, (-24)); (24, (-1), 105, (-24));
  (26, (-1), 1, (-22)); (28, (-1), 97, (-24)); (3, 0, 93, (-24)); (32, (-1), 82, (-24));
  (34, (-1), 69, (-24)); (36, (-1), 56, (-24)); (38, (-1), 46, (-24)); (4, 0, 385, (-25));
  (42, (-1), 355, (-25)); (44, (-1), 36, (-24)); (46, (-1), 38, (-24)); (48, (-1), 415, (-25));
  (5, 0, 465, (-25)); (52, (-1), 518, (-25)); (54, (-1), 572, (-25)); (56, (-1), 63, (-24));
  (58, (-1), 68, (-24)); (6, 0, 69, (-24)); (62, (-1), 7, (-23)); (64, (-1), 685, (-25));
  (66, (-1), 64, (-24)); (68, (-1), 582, (-25)); (7, 0, 523, (-25)); (72, (-1), 49, (-24));
  (74, (-1), 4, (-23)); (76, (-1), 354, (-25)); (78, (-1), 295, (-25)); (8, 0, 25, (-24));
  (82, (-1), 21, (-24)); (84, (-1), 173, (-25)); (86, (-1), 142, (-25)); (88, (-1), 118, (-25));
  (2, 1, 0, 0)].
(** data/standard/interactions.xml, from line 2786. *)
Definition tab84 := rows_of [
  (36, (-2), 0, 0); (46, (-2), 1305, (-22)); (7, (-1), 2925, (-23)); (13, (-1), 1425, (-23));
  (23, (-1), 21, (-21)); (305, (-2), 21, (-21)); (44, (-1), 9, (-21)); (7, 0, 0, 0)].
(** data/standard/interactions.xml, from line 2802. *)
Definition tab85 := rows_of [
  (7, (-1), 0, 0); (8, (-1), 1207, (-23)); (9, (-1), 51, (-22)); (105, (-2), 306, (-23));
  (12, (-1), 221, (-23)); (32, (-1), 3, (-21)); (39, (-1), 221, (-23)); (47, (-1), 1, (-21));
  (53, (-1), 7, (-22)); (72, (-1), 0, 0)].
(** data/standard/interactions.xml, from line 2820. *)
Definition tab86 := rows_of [
  (55, (-1), 0, 0); (69, (-1), 308, (-23)); (745, (-2), 336, (-23)); (795, (-2), 308, (-23));
  (11, 0, 0, 0)].
(** data/standard/interactions.xml, from line 2833. *)
Definition tab87 := rows_of [
  (93, (-1), 0, 0); (96, (-1), 396, (-23)); (103, (-1), 1104, (-23)); (106, (-1), 134, (-22));
  (1, 2, 18, (-21))].
(** data/standard/interactions.xml, from line 2846. *)
Definition tab88 := rows_of [
  (41, (-2), 0, 0); (45, (-2), 5, (-23)); (55, (-2), 1, (-22)); (6, (-1), 1, (-22));
  (65, (-2), 1, (-22)); (675, (-3), 1, (-22)); (7, (-1), 129, (-24)); (725, (-3), 183, (-24));
  (75, (-2), 291, (-24)); (775, (-3), 456, (-24)); (8, (-1), 653, (-24)); (82, (-2), 826, (-24));
  (84, (-2), 975, (-24)); (86, (-2), 1155, (-24)); (88, (-2), 1254, (-24));
  (9, (-1), 1269, (-24)); (92, (-2), 1243, (-24)); (94, (-2), 1151, (-24));
  (96, (-2), 1134, (-24)); (98, (-2), 1027, (-24)); (1, 0, 978, (-24)); (1025, (-3), 9, (-22));
  (105, (-2), 82, (-23)); (1075, (-3), 769, (-24)); (11, (-1), 717, (-24));
  (1125, (-3), 695, (-24)); (115, (-2), 64, (-23)); (1175, (-3), 582, (-24));
  (12, (-1), 558, (-24)); (125, (-2), 433, (-24)); (13, (-1), 335, (-24));
  (135, (-2), 267, (-24)); (14, (-1), 234, (-24)); (15, (-1), 158, (-24));
  (16, (-1), 118, (-24)); (18, (-1), 73, (-24)); (2, 0, 0, 0)].
(** data/standard/interactions.xml, from line 2900. *)
Definition tab89 := rows_of [
  (56, (-1), 0, 0); (675, (-2), 115, (-24)); (7, 0, 129, (-24)); (72, (-1), 138, (-24));
  (75, (-1), 115, (-24)); (785, (-2), 74, (-24)); (83, (-1), 53, (-24)); (85, (-1), 55, (-24));
  (9, 0, 69, (-24)); (925, (-2), 71, (-24)); (95, (-1), 69, (-24)); (1, 1, 58, (-24));
  (105, (-1), 37, (-24)); (11, 0, 22, (-24)); (12, 0, 0, 0)].
(** data/standard/interactions.xml, from line 2923. *)
Definition tab90 := rows_of [
  (1274, (-2), 0, 0); (2, 1, 16, (-21)); (25, 0, 246, (-22)); (3, 1, 286, (-22));
  (35, 0, 307, (-22)); (4, 1, 321, (-22)); (5, 1, 341, (-22)); (75, 0, 375, (-22));
  (1, 2, 407, (-22))].
(** data/standard/interactions.xml, from line 2949. *)
Definition tab91 := rows_of [
  (0, 0, 44, (-21)); (1, (-2), 4467, (-23)); (14, (-3), 3389, (-23)); (2, (-2), 2417, (-23));
  (25, (-3), 1837, (-23)); (36, (-3), 1332, (-23)); (48, (-3), 1039, (-23));
  (65, (-3), 837, (-23)); (89, (-3), 7072, (-24)); (119, (-3), 6514, (-24));
  (162, (-3), 6071, (-24)); (261, (-3), 65, (-22)); (369, (-3), 7403, (-24));
  (532, (-3), 8921, (-24)); (751, (-3), 1132, (-23)); (1076, (-3), 1592, (-23));
  (1483, (-3), 2295, (-23)); (199, (-2), 3174, (-23)); (2652, (-3), 4333, (-23));
  (3535, (-3), 5954, (-23)); (457, (-2), 7811, (-23)); (6038, (-3), 9525, (-23));
  (8098, (-3), 11, (-20)); (1199, (-2), 1265, (-22)); (19, 0, 1263, (-22));
  (2508, (-2), 1096, (-22)); (3233, (-2), 9559, (-23)); (4066, (-2), 8282, (-23));
  (5095, (-2), 7093, (-23)); (6725, (-2), 6115, (-23)); (915, (-1), 5065, (-23))].
(** data/standard/interactions.xml, from line 2988. *)
Definition tab92 := rows_of [
  (8, (-2), 0, 0); (88, (-3), 124, (-23)); (94, (-3), 3258, (-24)); (106, (-3), 4684, (-24));
  (134, (-3), 4681, (-24)); (181, (-3), 3527, (-24)); (251, (-3), 2571, (-24));
  (338, (-3), 1886, (-24)); (445, (-3), 1403, (-24)); (597, (-3), 1069, (-24));
  (802, (-3), 79, (-23)); (1024, (-3), 6155, (-25)); (1365, (-3), 4562, (-25));
  (1837, (-3), 3331, (-25)); (2368, (-3), 2612, (-25)); (3046, (-3), 2008, (-25));
  (3927, (-3), 1557, (-25)); (4703, (-3), 1294, (-25)); (578, (-2), 1042, (-25));
  (1, 1, 79, (-24)); (2, 1, 51, (-24)); (5, 1, 26, (-24)); (1, 2, 16, (-24))].
(** data/standard/interactions.xml, from line 3019. *)
Definition tab93 := rows_of [
  (166, (-3), 0, 0); (174, (-3), 1621, (-23)); (191, (-3), 9539, (-23)); (22, (-2), 1164, (-22));
  (264, (-3), 1167, (-22)); (342, (-3), 946, (-22)); (455, (-3), 6919, (-23));
  (605, (-3), 5231, (-23)); (809, (-3), 434, (-22)); (1117, (-3), 3673, (-23));
  (1669, (-3), 3129, (-23)); (2308, (-3), 257, (-22)); (3308, (-3), 2328, (-23));
  (4593, (-3), 238, (-22)); (587, (-2), 3175, (-23)); (7192, (-3), 6575, (-23));
  (7721, (-3), 846, (-22)); (8484, (-3), 9643, (-23)); (9617, (-3), 8916, (-23));
  (1064, (-2), 6579, (-23)); (1236, (-2), 4125, (-23)); (1528, (-2), 2261, (-23));
  (179, (-1), 1404, (-23)); (2145, (-2), 9097, (-24)); (258, (-1), 577, (-23));
  (3296, (-2), 3641, (-24)); (4196, (-2), 2193, (-24)); (5174, (-2), 1352, (-24));
  (5823, (-2), 1072, (-24)); (6631, (-2), 8228, (-25)); (8029, (-2), 5289, (-25));
  (104, 0, 3202, (-25))].
(** data/standard/interactions.xml, from line 3059. *)
Definition tab94 := rows_of [
  (642, (-2), 0, 0); (6427, (-3), 1, (-22)); (6787, (-3), 1328, (-25));
  (6965, (-3), 1763, (-25)); (7316, (-3), 2198, (-25)); (7541, (-3), 2291, (-25));
  (8167, (-3), 1837, (-25)); (8524, (-3), 1442, (-25)); (8868, (-3), 1133, (-25));
  (942, (-2), 9971, (-26)); (1, 1, 0, 0)].
(** data/standard/interactions.xml, from line 3078. *)
Definition tab95 := rows_of [
  (757, (-2), 0, 0); (7573, (-3), 9911, (-26)); (814, (-2), 589, (-24));
  (8916, (-3), 1332, (-24)); (1049, (-2), 2176, (-24)); (1303, (-2), 3405, (-24));
  (1621, (-2), 4386, (-24)); (1996, (-2), 5227, (-24)); (3375, (-2), 7238, (-24));
  (4743, (-2), 8299, (-24)); (6577, (-2), 8964, (-24)); (973, (-1), 9426, (-24))].
(** data/standard/interactions.xml, from line 3098. *)
Definition tab96 := rows_of [
  (127, (-1), 0, 0); (1271, (-2), 1003, (-25)); (1344, (-2), 8774, (-25));
  (1463, (-2), 2255, (-24)); (1601, (-2), 3403, (-24)); (1823, (-2), 4725, (-24));
  (2161, (-2), 6549, (-24)); (2785, (-2), 8577, (-24)); (3316, (-2), 9905, (-24));
  (3844, (-2), 1138, (-23)); (5226, (-2), 1385, (-23)); (8528, (-2), 1745, (-23));
  (987, (-1), 1846, (-23))].
(** data/standard/interactions.xml, from line 3119. *)
Definition tab97 := rows_of [
  (1561, (-2), 9793, (-26)); (168, (-1), 2894, (-25)); (1829, (-2), 7715, (-25));
  (2015, (-2), 2349, (-24)); (2188, (-2), 4591, (-24)); (4465, (-2), 7989, (-24));
  (6858, (-2), 8977, (-24)); (982, (-1), 9664, (-24))].
(** data/standard/interactions.xml, from line 3140. *)
Definition tab98 := rows_of [
  (0, 0, 3277, (-22)); (94, (-4), 3277, (-22)); (138, (-4), 2994, (-22));
  (207, (-4), 2583, (-22)); (327, (-4), 2151, (-22)); (432, (-4), 1861, (-22));
  (56, (-3), 1569, (-22)); (721, (-4), 1262, (-22)); (955, (-4), 873, (-22));
  (1233, (-4), 548, (-22)); (1491, (-4), 352, (-22)); (1686, (-4), 236, (-22));
  (1869, (-4), 155, (-22)); (2071, (-4), 123, (-22)); (2242, (-4), 112, (-22));
  (2352, (-4), 109, (-22)); (2537, (-4), 11, (-21)); (2717, (-4), 114, (-22));
  (2928, (-4), 122, (-22)); (3187, (-4), 137, (-22)); (3747, (-4), 191, (-22));
  (5237, (-4), 363, (-22)); (7632, (-4), 656, (-22)); (1156, (-3), 1196, (-22));
  (1439, (-3), 1602, (-22)); (1778, (-3), 1941, (-22)); (2093, (-3), 2096, (-22));
  (2311, (-3), 2134, (-22)); (2655, (-3), 2102, (-22)); (3898, (-3), 19, (-20));
  (9193, (-3), 1462, (-22)); (2096, (-2), 1043, (-22)); (4116, (-2), 77, (-21));
  (6894, (-2), 614, (-22)); (948, (-1), 517, (-22))].
(** data/standard/interactions.xml, from line 3183. *)
Definition tab99 := rows_of [
  (113, (-3), 0, 0); (118, (-3), 101, (-23)); (119, (-3), 326, (-23)); (121, (-3), 1063, (-23));
  (125, (-3), 2495, (-23)); (128, (-3), 3196, (-23)); (133, (-3), 3691, (-23));
  (138, (-3), 3999, (-23)); (146, (-3), 4252, (-23)); (163, (-3), 4425, (-23));
  (183, (-3), 4395, (-23)); (2, (-1), 4265, (-23)); (229, (-3), 3892, (-23));
  (266, (-3), 3382, (-23)); (348, (-3), 2423, (-23)); (392, (-3), 217, (-22));
  (441, (-3), 1959, (-23)); (494, (-3), 1842, (-23)); (591, (-3), 176, (-22));
  (763, (-3), 1748, (-23)); (876, (-3), 1758, (-23)); (1026, (-3), 1844, (-23));
  (1226, (-3), 2084, (-23)); (1422, (-3), 2499, (-23)); (1693, (-3), 3387, (-23));
  (1947, (-3), 4711, (-23)); (2097, (-3), 5543, (-23)); (2253, (-3), 6253, (-23));
  (2415, (-3), 6704, (-23)); (2561, (-3), 6875, (-23)); (2709, (-3), 6801, (-23));
  (2903, (-3), 6408, (-23)); (3057, (-3), 5849, (-23)); (3813, (-3), 3652, (-23));
  (501, (-2), 2176, (-23)); (6199, (-3), 1479, (-23)); (8454, (-3), 986, (-23));
  (1446, (-2), 574, (-23)); (2016, (-2), 394, (-23)); (2833, (-2), 244, (-23));
  (3836, (-2), 139, (-23)); (4526, (-2), 1, (-21)); (1, 2, 174, (-24))].
(** data/standard/interactions.xml, from line 3234. *)
Definition tab100 := rows_of [
  (27, (-2), 0, 0); (271, (-3), 1274, (-23)); (276, (-3), 1617, (-23)); (287, (-3), 1909, (-23));
  (302, (-3), 2156, (-23)); (319, (-3), 2307, (-23)); (338, (-3), 2454, (-23));
  (365, (-3), 2523, (-23)); (393, (-3), 2533, (-23)); (435, (-3), 249, (-22));
  (481, (-3), 2401, (-23)); (556, (-3), 2209, (-23)); (706, (-3), 1976, (-23));
  (774, (-3), 1934, (-23)); (851, (-3), 1942, (-23)); (974, (-3), 2013, (-23));
  (1117, (-3), 2164, (-23)); (1232, (-3), 2346, (-23)); (138, (-2), 2676, (-23));
  (1532, (-3), 3187, (-23)); (1675, (-3), 3787, (-23)); (1939, (-3), 5438, (-23));
  (2061, (-3), 6127, (-23)); (2177, (-3), 66, (-21)); (2309, (-3), 6931, (-23));
  (2422, (-3), 7035, (-23)); (2518, (-3), 7019, (-23)); (2687, (-3), 6668, (-23));
  (2868, (-3), 5968, (-23)); (4476, (-3), 1919, (-23)); (6591, (-3), 814, (-23));
  (8305, (-3), 444, (-23)); (1156, (-2), 216, (-23)); (1652, (-2), 1, (-21)); (1, 2, 44, (-24))].
(** data/standard/interactions.xml, from line 3277. *)
Definition tab101 := rows_of [
  (78, (-1), 101, (-23)); (783, (-2), 204, (-23)); (803, (-2), 575, (-23));
  (873, (-2), 1344, (-23)); (993, (-2), 2543, (-23)); (1156, (-2), 4063, (-23));
  (1348, (-2), 5409, (-23)); (1596, (-2), 6381, (-23)); (1854, (-2), 6901, (-23));
  (22, 0, 7094, (-23)); (2599, (-2), 6714, (-23)); (3104, (-2), 5788, (-23));
  (3613, (-2), 4614, (-23)); (4542, (-2), 2347, (-23)); (5698, (-2), 822, (-23));
  (6907, (-2), 282, (-23)); (782, (-1), 144, (-23)); (8249, (-2), 101, (-23))].
(** data/standard/interactions.xml, from line 3303. *)
Definition tab102 := rows_of [
  (84, (-1), 0, 0); (881, (-2), 101, (-23)); (884, (-2), 188, (-23)); (892, (-2), 397, (-23));
  (937, (-2), 658, (-23)); (1023, (-2), 949, (-23)); (1158, (-2), 1256, (-23));
  (1362, (-2), 163, (-22)); (2594, (-2), 3548, (-23)); (3683, (-2), 5284, (-23));
  (4361, (-2), 6052, (-23)); (5001, (-2), 6545, (-23)); (5459, (-2), 6671, (-23));
  (5896, (-2), 6545, (-23)); (6576, (-2), 6116, (-23)); (8161, (-2), 5097, (-23));
  (9279, (-2), 4683, (-23))].
(** data/standard/interactions.xml, from line 3328. *)
Definition tab103 := rows_of [
  (0, 0, 0, 0); (7, 0, 101, (-25)); (702, (-2), 165, (-25)); (703, (-2), 313, (-25));
  (7203, (-3), 544, (-25)); (739, (-2), 817, (-25)); (7729, (-3), 1189, (-25));
  (7981, (-3), 1438, (-25)); (805, (-2), 1472, (-25)); (8154, (-3), 1482, (-25));
  (8171, (-3), 146, (-24)); (8277, (-3), 1408, (-25)); (8583, (-3), 1069, (-25));
  (9016, (-3), 664, (-25)); (9532, (-3), 294, (-25)); (9843, (-3), 148, (-25));
  (997, (-2), 1, (-23)); (15, 0, 0, 0)].
(** data/standard/interactions.xml, from line 3354. *)
Definition tab104 := rows_of [
  (116, (-1), 0, 0); (1222, (-2), 1, (-21)); (1229, (-2), 184, (-23)); (1278, (-2), 442, (-23));
  (1365, (-2), 897, (-23)); (1549, (-2), 1626, (-23)); (1761, (-2), 2283, (-23));
  (2149, (-2), 3177, (-23)); (2577, (-2), 4029, (-23)); (2917, (-2), 4488, (-23));
  (3469, (-2), 4938, (-23)); (4494, (-2), 5295, (-23)); (5459, (-2), 542, (-22));
  (6661, (-2), 5455, (-23)); (9259, (-2), 5352, (-23))].
(** data/standard/interactions.xml, from line 3449. *)
Definition tab106 := rows_of [
  (95, (-3), 0, 0); (15, (-2), 34, (-20)); (2, (-1), 2, (-19)); (25, (-2), 148, (-21));
  (3, (-1), 126, (-21)); (5, (-1), 111, (-21)); (1, 0, 1, (-19)); (15, (-1), 65, (-21));
  (2, 0, 46, (-21)); (25, (-1), 35, (-21)); (5, 0, 18, (-21)); (1, 1, 9, (-21));
  (2, 1, 45, (-22)); (1, 2, 9, (-22)); (1, 3, 9, (-23)); (1, 4, 9, (-23))].
(** data/standard/interactions.xml, from line 3473. *)
Definition tab107 := rows_of [
  (1, 1, 0, 0); (12, 0, 5, (-21)); (14, 0, 9, (-21)); (2, 1, 5, (-21)); (25, 0, 4, (-21));
  (4, 1, 225, (-23)); (7, 1, 135, (-23)); (1, 2, 1, (-21)); (15, 1, 7, (-22)); (2, 2, 55, (-23));
  (4, 2, 3, (-22)); (7, 2, 185, (-24)); (1, 3, 125, (-24))].
(** data/standard/interactions.xml, from line 3494. *)
Definition tab108 := rows_of [
  (117, (-1), 0, 0); (145, (-1), 756, (-24)); (175, (-1), 171, (-23)); (225, (-1), 558, (-23));
  (26, 0, 1026, (-23)); (3, 1, 1737, (-23)); (36, 0, 2736, (-23)); (45, 0, 378, (-22));
  (6, 1, 4572, (-23)); (9, 1, 5652, (-23)); (12, 1, 6165, (-23)); (15, 1, 6273, (-23));
  (2, 2, 6147, (-23)); (25, 1, 576, (-22)); (3, 2, 5481, (-23)); (5, 2, 441, (-22));
  (1, 3, 288, (-22))].
(** data/standard/interactions.xml, from line 3519. *)
Definition tab109 := rows_of [
  (15, 0, 0, 0); (175, (-1), 6048, (-25)); (19, 0, 1368, (-24)); (225, (-1), 4464, (-24));
  (26, 0, 8208, (-24)); (3, 1, 139, (-22)); (36, 0, 2189, (-23)); (45, 0, 3024, (-23));
  (6, 1, 3658, (-23)); (9, 1, 4522, (-23)); (12, 1, 4932, (-23)); (15, 1, 5018, (-23));
  (2, 2, 4918, (-23)); (25, 1, 4608, (-23)); (3, 2, 4385, (-23)); (5, 2, 3528, (-23));
  (1, 3, 2304, (-23))].
(** data/standard/interactions.xml, from line 3544. *)
Definition tab110 := rows_of [
  (157, (-1), 0, 0); (1645, (-2), 8, (-23)); (173, (-1), 33, (-23)); (181, (-1), 77, (-23));
  (195, (-1), 12, (-22)); (205, (-1), 155, (-23)); (21, 0, 32, (-22)); (22, 0, 46, (-22));
  (23, 0, 62, (-22)); (24, 0, 82, (-22)); (26, 0, 126, (-22)); (3, 1, 193, (-22));
  (36, 0, 304, (-22)); (45, 0, 41, (-21)); (6, 1, 53, (-21)); (9, 1, 628, (-22));
  (12, 1, 685, (-22)); (15, 1, 697, (-22)); (2, 2, 683, (-22)); (25, 1, 64, (-21));
  (3, 2, 609, (-22)); (5, 2, 49, (-21)); (1, 3, 31, (-21))].
(** data/standard/interactions.xml, from line 3575. *)
Definition tab111 := rows_of [
  (0, 0, 14, (-18)); (1, (-3), 13, (-18)); (2, (-3), 9, (-18)); (5, (-3), 57, (-19));
  (7, (-3), 48, (-19)); (1, (-2), 4, (-18)); (2, (-2), 285, (-20)); (3, (-2), 23, (-19));
  (5, (-2), 147, (-20)); (7, (-2), 95, (-20)); (1, (-1), 49, (-20)); (12, (-2), 33, (-20));
  (15, (-2), 16, (-20)); (17, (-2), 95, (-21)); (2, (-1), 42, (-21)); (25, (-2), 1, (-20));
  (3, (-1), 0, 0)].
(** data/standard/interactions.xml, from line 3600. *)
Definition tab112 := rows_of [
  (0, 0, 2275, (-23)); (2, (-2), 208, (-22)); (5, (-2), 1625, (-23)); (75, (-3), 1495, (-23));
  (1, (-1), 1664, (-23)); (2, (-1), 2548, (-23)); (3, (-1), 2984, (-23));
  (35, (-2), 3068, (-23)); (4, (-1), 2899, (-23)); (6, (-1), 1404, (-23));
  (8, (-1), 6143, (-24)); (15, (-1), 0, 0)].
(** data/standard/interactions.xml, from line 3620. *)
Definition tab113 := rows_of [
  (13, (-1), 0, 0); (16, (-1), 715, (-27)); (19, (-1), 13, (-25)); (21, (-1), 195, (-26));
  (24, (-1), 13, (-24)); (25, (-1), 195, (-25)); (27, (-1), 169, (-25)); (29, (-1), 195, (-26));
  (31, (-1), 195, (-27)); (35, (-1), 65, (-25)); (4, 0, 65, (-24)); (45, (-1), 2275, (-25));
  (5, 0, 3705, (-25)); (55, (-1), 3445, (-25)); (6, 0, 2145, (-25)); (65, (-1), 104, (-24));
  (7, 0, 4225, (-26)); (75, (-1), 273, (-25)); (8, 0, 52, (-24)); (9, 0, 845, (-25));
  (1, 1, 5525, (-26)); (11, 0, 117, (-24)); (12, 0, 975, (-25)); (13, 0, 4875, (-26));
  (15, 0, 0, 0)].
(** data/standard/interactions.xml, from line 3724. *)
Definition tab115 := rows_of [
  (1982, (-2), 0, 0); (2002, (-2), 41, (-23)); (2024, (-2), 46, (-23)); (2145, (-2), 42, (-23));
  (218, (-1), 55, (-23)); (2245, (-2), 55, (-23)); (2422, (-2), 73, (-23));
  (2532, (-2), 92, (-23)); (2753, (-2), 108, (-23)); (2975, (-2), 116, (-23));
  (3418, (-2), 121, (-23)); (463, (-1), 121, (-23)); (1, 2, 115, (-23)); (2, 2, 1, (-21));
  (4, 2, 6, (-22)); (7, 2, 35, (-23)); (1, 3, 25, (-23))].
(** data/standard/interactions.xml, from line 3748. *)
Definition tab116 := rows_of [
  (2458, (-2), 0, 0); (3, 1, 71, (-24)); (34, 0, 121, (-23)); (4, 1, 178, (-23));
  (45, 0, 212, (-23)); (5, 1, 242, (-23)); (6, 1, 289, (-23)); (7, 1, 313, (-23));
  (8, 1, 332, (-23)); (9, 1, 344, (-23)); (1, 2, 351, (-23)); (15, 1, 346, (-23));
  (2, 2, 324, (-23)); (3, 2, 29, (-22)); (5, 2, 22, (-22)); (7, 2, 18, (-22)); (1, 3, 14, (-22))].
(** data/standard/interactions.xml, from line 3779. *)
Definition tab117 := rows_of [
  (0, 0, 161, (-23)); (3, (-2), 469, (-23)); (5, (-2), 536, (-23)); (7, (-2), 601, (-23));
  (9, (-2), 669, (-23)); (12, (-2), 754, (-23)); (15, (-2), 828, (-23)); (18, (-2), 893, (-23));
  (2, (-1), 93, (-22)); (25, (-2), 1018, (-23)); (3, (-1), 1091, (-23)); (4, (-1), 1225, (-23));
  (5, (-1), 1321, (-23)); (6, (-1), 1402, (-23)); (7, (-1), 1472, (-23)); (8, (-1), 1528, (-23));
  (9, (-1), 158, (-22)); (1, 0, 1619, (-23)); (12, (-1), 1685, (-23)); (15, (-1), 1753, (-23));
  (18, (-1), 1793, (-23)); (2, 0, 1815, (-23)); (25, (-1), 186, (-22)); (3, 0, 1906, (-23));
  (4, 0, 1984, (-23)); (5, 0, 207, (-22)); (6, 0, 2144, (-23)); (8, 0, 227, (-22));
  (1, 1, 242, (-22)); (12, 0, 254, (-22)); (15, 0, 273, (-22)); (2, 1, 293, (-22));
  (25, 0, 295, (-22)); (3, 1, 291, (-22)); (4, 1, 274, (-22)); (5, 1, 249, (-22));
  (6, 1, 223, (-22)); (8, 1, 18, (-21)); (1, 2, 144, (-22)); (12, 1, 119, (-22));
  (15, 1, 878, (-23)); (2, 2, 616, (-23)); (3, 2, 372, (-23)); (4, 2, 259, (-23));
  (5, 2, 193, (-23)); (6, 2, 15, (-22)); (8, 2, 101, (-23)); (1, 3, 721, (-24))].
(** data/standard/interactions.xml, from line 3834. *)
Definition tab118 := rows_of [
  (1662, (-2), 0, 0); (17, 0, 106, (-24)); (18, 0, 174, (-24)); (2, 1, 235, (-24));
  (21, 0, 266, (-24)); (22, 0, 306, (-24)); (27, 0, 345, (-24)); (3, 1, 315, (-24));
  (4, 1, 246, (-24)); (55, 0, 209, (-24)); (82, 0, 165, (-24)); (102, 0, 137, (-24));
  (122, 0, 119, (-24)); (142, 0, 101, (-24)); (147, 0, 99, (-24))].
(** data/standard/interactions.xml, from line 3856. *)
Definition tab119 := rows_of [
  (1667, (-2), 0, 0); (1771, (-2), 241, (-25)); (2097, (-2), 53, (-24));
  (2443, (-2), 736, (-25)); (2732, (-2), 84, (-24)); (2962, (-2), 902, (-25));
  (3335, (-2), 967, (-25)); (3681, (-2), 1, (-22)); (4544, (-2), 1018, (-25));
  (5306, (-2), 1016, (-25)); (8668, (-2), 876, (-25)); (1065, (-1), 803, (-25));
  (1295, (-1), 731, (-25)); (1507, (-1), 664, (-25)); (1779, (-1), 599, (-25));
  (2, 2, 56, (-24)); (5, 2, 263, (-25)); (1, 3, 146, (-25))].
(** data/standard/interactions.xml, from line 3882. *)
Definition tab120 := rows_of [
  (1684, (-2), 0, 0); (2082, (-2), 191, (-24)); (2365, (-2), 488, (-24));
  (2748, (-2), 68, (-23)); (3065, (-2), 872, (-24)); (3393, (-2), 997, (-24));
  (3705, (-2), 109, (-23)); (4012, (-2), 1137, (-24)); (4453, (-2), 119, (-23));
  (4856, (-2), 122, (-23)); (5392, (-2), 124, (-23)); (5903, (-2), 1237, (-24));
  (6559, (-2), 122, (-23)); (7575, (-2), 1184, (-24)); (9372, (-2), 1099, (-24));
  (1267, (-1), 968, (-24)); (1469, (-1), 889, (-24)); (1648, (-1), 831, (-24));
  (1846, (-1), 779, (-24)); (2, 2, 742, (-24)); (5, 2, 35, (-23)); (1, 3, 193, (-24))].
(** data/standard/interactions.xml, from line 3912. *)
Definition tab121 := rows_of [
  (1872, (-2), 28, (-24)); (1925, (-2), 111, (-24)); (2067, (-2), 207, (-24));
  (2222, (-2), 287, (-24)); (2344, (-2), 329, (-24)); (253, (-1), 368, (-24));
  (2732, (-2), 394, (-24)); (3005, (-2), 41, (-23)); (3371, (-2), 414, (-24));
  (3809, (-2), 4, (-22)); (5754, (-2), 319, (-24)); (7304, (-2), 262, (-24));
  (888, (-1), 22, (-23)); (1, 2, 177, (-24)); (2, 2, 5, (-23))].
(** data/standard/interactions.xml, from line 3935. *)
Definition tab122 := rows_of [
  (2, 1, 0, 0); (2028, (-2), 27, (-24)); (2116, (-2), 58, (-24)); (2353, (-2), 101, (-24));
  (2568, (-2), 126, (-24)); (2854, (-2), 149, (-24)); (3178, (-2), 164, (-24));
  (3671, (-2), 177, (-24)); (4433, (-2), 187, (-24)); (5502, (-2), 195, (-24));
  (704, (-1), 196, (-24)); (89, 0, 192, (-24)); (1, 2, 174, (-24)); (2, 2, 1, (-22));
  (5, 2, 47, (-24)); (1, 3, 26, (-24))].
(** data/standard/interactions.xml, from line 3959. *)
Definition tab123 := rows_of [
  (2065, (-2), 0, 0); (2169, (-2), 268, (-25)); (2325, (-2), 436, (-25));
  (2475, (-2), 53, (-24)); (268, (-1), 611, (-25)); (2885, (-2), 654, (-25));
  (321, (-1), 68, (-24)); (3542, (-2), 69, (-24)); (4121, (-2), 66, (-24));
  (6649, (-2), 5, (-23)); (7611, (-2), 45, (-24)); (897, (-1), 39, (-24)); (2, 2, 92, (-25));
  (5, 2, 17, (-25))].
(** data/standard/interactions.xml, from line 3980. *)
Definition tab124 := rows_of [
  (49, (-1), 0, 0); (676, (-2), 32, (-21)); (7946, (-3), 44, (-21)); (9134, (-3), 52, (-21));
  (1058, (-2), 574, (-22)); (1162, (-2), 592, (-22)); (128, (-1), 596, (-22));
  (1421, (-2), 591, (-22)); (1541, (-2), 58, (-21)); (1918, (-2), 531, (-22));
  (2833, (-2), 428, (-22)); (426, (-1), 31, (-21)); (5433, (-2), 25, (-21));
  (7603, (-2), 187, (-22)); (1209, (-1), 121, (-22)); (2121, (-1), 65, (-22)); (5, 2, 33, (-22));
  (1, 3, 184, (-23))].
(** data/standard/interactions.xml, from line 4006. *)
Definition tab125 := rows_of [
  (2156, (-2), 0, 0); (22, 0, 9, (-23)); (23, 0, 19, (-23)); (24, 0, 29, (-23));
  (25, 0, 37, (-23)); (26, 0, 48, (-23)); (27, 0, 62, (-23)); (28, 0, 71, (-23));
  (29, 0, 81, (-23)); (3, 1, 97, (-23)); (31, 0, 108, (-23)); (32, 0, 121, (-23));
  (33, 0, 135, (-23)); (34, 0, 144, (-23)); (35, 0, 151, (-23)); (36, 0, 17, (-22));
  (37, 0, 179, (-23)); (38, 0, 189, (-23)); (39, 0, 204, (-23)); (4, 1, 242, (-23));
  (5, 1, 359, (-23)); (6, 1, 457, (-23)); (7, 1, 537, (-23)); (8, 1, 593, (-23));
  (9, 1, 636, (-23)); (1, 2, 66, (-22)); (15, 1, 714, (-23)); (2, 2, 705, (-23));
  (3, 2, 633, (-23)); (4, 2, 56, (-22)); (5, 2, 503, (-23)); (6, 2, 453, (-23));
  (7, 2, 413, (-23)); (8, 2, 379, (-23)); (9, 2, 349, (-23)); (1, 3, 325, (-23))].
(** data/standard/interactions.xml, from line 4054. *)
Definition tab126 := rows_of [
  (0, 0, 15, (-21)); (8, (-2), 15, (-21)); (1, (-1), 119, (-22)); (5, (-1), 374, (-23));
  (1, 0, 107, (-22)); (5, 0, 881, (-22)); (1, 1, 2006, (-22)); (15, 0, 2322, (-22));
  (16, 0, 223, (-21)); (18, 0, 1952, (-22)); (2, 1, 186, (-21)); (25, 0, 1627, (-22));
  (3, 1, 1394, (-22)); (4, 1, 951, (-22)); (5, 1, 774, (-22)); (7, 1, 615, (-22));
  (9, 1, 5, (-20)); (1, 2, 486, (-22)); (15, 1, 379, (-22)); (2, 2, 32, (-21));
  (25, 1, 2833, (-23)); (3, 2, 2466, (-23)); (35, 1, 229, (-22)); (4, 2, 2115, (-23));
  (45, 1, 2, (-20)); (5, 2, 1885, (-23)); (55, 1, 1806, (-23)); (6, 2, 1728, (-23));
  (65, 1, 1649, (-23)); (7, 2, 1571, (-23)); (8, 2, 1448, (-23)); (9, 2, 1361, (-23));
  (1, 3, 1274, (-23))].
(** data/standard/interactions.xml, from line 4173. *)
Definition tab127 := rows_of [
  (115, (-1), 0, 0); (127, (-1), 7, (-22)); (137, (-1), 141, (-23)); (147, (-1), 228, (-23));
  (159, (-1), 38, (-22)); (165, (-1), 48, (-22)); (175, (-1), 61, (-22)); (185, (-1), 75, (-22));
  (199, (-1), 92, (-22)); (222, (-1), 117, (-22)); (247, (-1), 133, (-22)); (27, 0, 142, (-22));
  (3, 1, 144, (-22)); (33, 0, 141, (-22)); (353, (-1), 134, (-22)); (42, 0, 125, (-22));
  (48, 0, 116, (-22)); (52, 0, 111, (-22)); (7, 1, 94, (-22)); (1, 2, 76, (-22));
  (15, 1, 6, (-21)); (2, 2, 505, (-23)); (3, 2, 395, (-23)); (5, 2, 28, (-22));
  (7, 2, 225, (-23)); (1, 3, 177, (-23)); (15, 2, 136, (-23)); (2, 3, 11, (-22));
  (3, 3, 83, (-23)); (5, 3, 58, (-23)); (7, 3, 45, (-23)); (1, 4, 35, (-23))].
(** data/standard/interactions.xml, from line 4214. *)
Definition tab128 := rows_of [
  (158, (-1), 0, 0); (16, 0, 202, (-24)); (17, 0, 134, (-23)); (18, 0, 294, (-23));
  (2, 1, 63, (-22)); (22, 0, 93, (-22)); (2375, (-2), 115, (-22)); (25, 0, 13, (-21));
  (265, (-1), 145, (-22)); (3, 1, 18, (-21)); (325, (-1), 199, (-22)); (35, 0, 217, (-22));
  (375, (-1), 231, (-22)); (4, 1, 239, (-22)); (5, 1, 253, (-22)); (55, 0, 26, (-21));
  (1, 2, 285, (-22)); (15, 1, 252, (-22)); (2, 2, 239, (-22)); (3, 2, 2, (-20));
  (5, 2, 145, (-22)); (7, 2, 115, (-22)); (1, 3, 86, (-22)); (15, 2, 64, (-22));
  (2, 3, 52, (-22)); (3, 3, 36, (-22)); (5, 3, 24, (-22)); (7, 3, 18, (-22)); (1, 4, 135, (-23))].
(** data/standard/interactions.xml, from line 4257. *)
Definition tab129 := rows_of [
  (0, 0, 66, (-21)); (1001, (-4), 6611, (-23)); (1114, (-4), 6098, (-23));
  (1254, (-4), 5228, (-23)); (1445, (-4), 4344, (-23)); (1674, (-4), 3549, (-23));
  (189, (-3), 2877, (-23)); (2252, (-4), 2056, (-23)); (2615, (-4), 1478, (-23));
  (3147, (-4), 9862, (-24)); (3861, (-4), 6684, (-24)); (4915, (-4), 5212, (-24));
  (6255, (-4), 4991, (-24)); (7747, (-4), 5889, (-24)); (9522, (-4), 7967, (-24));
  (1172, (-3), 1112, (-23)); (1403, (-3), 1614, (-23)); (1695, (-3), 2408, (-23));
  (201, (-2), 3674, (-23)); (2366, (-3), 5389, (-23)); (2761, (-3), 6959, (-23));
  (3307, (-3), 8957, (-23)); (3983, (-3), 1075, (-22)); (4864, (-3), 1373, (-22));
  (4864, (-3), 1373, (-22)); (5751, (-3), 1635, (-22)); (7107, (-3), 1798, (-22));
  (9026, (-3), 1755, (-22)); (116, (-1), 1443, (-22)); (1454, (-2), 1095, (-22));
  (1822, (-2), 7695, (-23)); (2233, (-2), 5508, (-23)); (271, (-1), 3803, (-23));
  (314, (-1), 2874, (-23)); (3849, (-2), 1945, (-23)); (4712, (-2), 1432, (-23));
  (5794, (-2), 1171, (-23)); (756, (-1), 9646, (-24)); (9601, (-2), 9024, (-24));
  (1, 2, 9024, (-24))].
(** data/standard/interactions.xml, from line 4305. *)
Definition tab130 := rows_of [
  (95, (-1), 0, 0); (1029, (-2), 1451, (-26)); (103, (-1), 111, (-25));
  (1038, (-2), 2019, (-26)); (1055, (-2), 3716, (-26)); (1081, (-2), 5993, (-26));
  (1129, (-2), 1008, (-25)); (117, (-1), 1589, (-25)); (1271, (-2), 2559, (-25));
  (1371, (-2), 3404, (-25)); (1512, (-2), 505, (-24)); (1712, (-2), 5942, (-25));
  (1973, (-2), 5947, (-25)); (1973, (-2), 5947, (-25)); (2127, (-2), 5679, (-25));
  (2389, (-2), 4004, (-25)); (2834, (-2), 2271, (-25)); (3176, (-2), 1619, (-25));
  (3875, (-2), 1191, (-25)); (4743, (-2), 8535, (-26)); (5988, (-2), 635, (-25));
  (77, 0, 4836, (-26)); (9452, (-2), 3925, (-26)); (1068, (-1), 3528, (-26))].
(** data/standard/interactions.xml, from line 4337. *)
Definition tab131 := rows_of [
  (1, 1, 0, 0); (1081, (-2), 1095, (-25)); (1101, (-2), 1573, (-25)); (1122, (-2), 2217, (-25));
  (1164, (-2), 3315, (-25)); (1226, (-2), 4958, (-25)); (1295, (-2), 6659, (-25));
  (1413, (-2), 9564, (-25)); (1531, (-2), 1253, (-24)); (1627, (-2), 1481, (-24));
  (1721, (-2), 1725, (-24)); (1802, (-2), 1989, (-24)); (1915, (-2), 2289, (-24));
  (2148, (-2), 2452, (-24)); (2538, (-2), 248, (-23)); (2911, (-2), 2504, (-24));
  (3491, (-2), 2505, (-24)); (4117, (-2), 2463, (-24)); (5289, (-2), 2411, (-24));
  (6145, (-2), 2183, (-24)); (7194, (-2), 1828, (-24)); (8359, (-2), 1465, (-24))].
(** data/standard/interactions.xml, from line 4367. *)
Definition tab132 := rows_of [
  (1, 1, 0, 0); (1104, (-2), 1039, (-26)); (1137, (-2), 1476, (-26)); (1168, (-2), 2163, (-26));
  (123, (-1), 327, (-25)); (1288, (-2), 4377, (-26)); (1363, (-2), 5535, (-26));
  (1414, (-2), 6978, (-26)); (1521, (-2), 9303, (-26)); (1609, (-2), 1094, (-25));
  (1772, (-2), 1278, (-25)); (2083, (-2), 1361, (-25)); (236, (-1), 1233, (-25));
  (2645, (-2), 949, (-25)); (3021, (-2), 5922, (-26)); (3456, (-2), 4206, (-26));
  (404, (-1), 315, (-25)); (4866, (-2), 2181, (-26)); (5906, (-2), 169, (-25));
  (7126, (-2), 1441, (-26)); (8753, (-2), 121, (-25)); (99, 0, 1083, (-26))].
(** data/standard/interactions.xml, from line 4397. *)
Definition tab133 := rows_of [
  (1, 1, 0, 0); (2, 1, 136, (-23)); (22, 0, 16, (-22)); (5, 1, 16, (-22)); (6, 1, 14, (-22));
  (84, 0, 12, (-22)); (1, 2, 6, (-22))].
(** data/standard/interactions.xml, from line 4412. *)
Definition tab134 := rows_of [
  (11, 0, 0, 0); (115, (-1), 16, (-22)); (14, 0, 77, (-22)); (16, 0, 1, (-20));
  (2, 1, 11, (-21)); (22, 0, 12, (-21)); (24, 0, 12, (-21)); (3, 1, 115, (-22));
  (4, 1, 1, (-20)); (5, 1, 77, (-22)); (65, 0, 1, (-20)); (1, 2, 1, (-20))].
(** data/standard/interactions.xml, from line 4432. *)
Definition tab135 := rows_of [
  (14, 0, 0, 0); (1424, (-2), 1603, (-25)); (1434, (-2), 1008, (-25)); (1469, (-2), 5117, (-25));
  (151, (-1), 1257, (-24)); (1607, (-2), 2263, (-24)); (1704, (-2), 3673, (-24));
  (1763, (-2), 5709, (-24)); (1869, (-2), 8415, (-24)); (2126, (-2), 1255, (-23));
  (2416, (-2), 1724, (-23)); (2779, (-2), 2336, (-23)); (3115, (-2), 278, (-22));
  (3625, (-2), 3129, (-23)); (4392, (-2), 3428, (-23)); (5257, (-2), 3673, (-23));
  (6419, (-2), 4019, (-23)); (7799, (-2), 4164, (-23)); (1001, (-1), 4131, (-23))].
(** data/standard/interactions.xml, from line 4462. *)
Definition tab136 := rows_of [
  (0, 0, 1305, (-21)); (1, (-2), 8425, (-22)); (2, (-2), 6714, (-22)); (3, (-2), 5571, (-22));
  (4, (-2), 4724, (-22)); (6, (-2), 3533, (-22)); (8, (-2), 2729, (-22)); (1, (-1), 2153, (-22));
  (12, (-2), 1724, (-22)); (16, (-2), 114, (-21)); (2, (-1), 7787, (-23));
  (26, (-2), 4603, (-23)); (3, (-1), 3337, (-23)); (36, (-2), 2154, (-23));
  (4, (-1), 1661, (-23)); (44, (-2), 1318, (-23)); (5, (-1), 993, (-23));
  (56, (-2), 8191, (-24)); (6, (-1), 7652, (-24)); (62, (-2), 7541, (-24));
  (64, (-2), 753, (-23)); (66, (-2), 761, (-23)); (68, (-2), 779, (-23)); (7, (-1), 807, (-23));
  (76, (-2), 945, (-23)); (8, (-1), 1055, (-23)); (1, 0, 172, (-22)); (12, (-1), 255, (-22));
  (14, (-1), 353, (-22)); (18, (-1), 598, (-22)); (22, (-1), 895, (-22)); (26, (-1), 124, (-21));
  (3, 0, 161, (-21)); (4, 0, 241, (-21)); (5, 0, 28, (-20)); (6, 0, 28, (-20));
  (8, 0, 26, (-20)); (1, 1, 2, (-19)); (12, 0, 135, (-21)); (15, 0, 95, (-21)); (2, 1, 7, (-20));
  (25, 0, 59, (-21)); (3, 1, 51, (-21)); (4, 1, 42, (-21)); (5, 1, 36, (-21)); (6, 1, 32, (-21));
  (8, 1, 27, (-21)); (1, 2, 24, (-21)); (12, 1, 215, (-22)); (15, 1, 19, (-21));
  (2, 2, 165, (-22)); (25, 1, 145, (-22)); (3, 2, 13, (-21)); (5, 2, 94, (-22)); (1, 3, 58, (-22))].
(** data/standard/interactions.xml, from line 4525. *)
Definition tab137 := rows_of [
  (831, (-2), 0, 0); (847, (-2), 25, (-23)); (884, (-2), 63, (-23)); (9036, (-3), 1027, (-24));
  (938, (-2), 87, (-23)); (952, (-2), 18, (-22)); (973, (-2), 1026, (-24));
  (1049, (-2), 1158, (-24)); (1097, (-2), 118, (-23)); (1165, (-2), 116, (-23));
  (122, (-1), 1126, (-24)); (1498, (-2), 857, (-24)); (1746, (-2), 636, (-24));
  (2005, (-2), 464, (-24)); (2368, (-2), 311, (-24)); (2746, (-2), 217, (-24));
  (3336, (-2), 118, (-24)); (351, (-1), 104, (-24)); (5, 1, 0, 0)].
(** data/standard/interactions.xml, from line 4552. *)
Definition tab138 := rows_of [
  (844, (-2), 0, 0); (1509, (-2), 342, (-23)); (1718, (-2), 421, (-23));
  (1904, (-2), 477, (-23)); (2185, (-2), 533, (-23)); (2506, (-2), 571, (-23));
  (2857, (-2), 6, (-21)); (3374, (-2), 612, (-23)); (413, (-1), 6056, (-24));
  (6388, (-2), 539, (-23)); (8546, (-2), 4738, (-24)); (1, 2, 442, (-23)); (305, 0, 0, 0)].
(** data/standard/interactions.xml, from line 4573. *)
Definition tab139 := rows_of [
  (969, (-2), 0, 0); (1004, (-2), 1057, (-24)); (106, (-1), 2127, (-24));
  (1132, (-2), 3194, (-24)); (1227, (-2), 4304, (-24)); (1318, (-2), 484, (-23));
  (144, (-1), 532, (-23)); (1574, (-2), 556, (-23)); (1674, (-2), 566, (-23));
  (1836, (-2), 569, (-23)); (2081, (-2), 563, (-23)); (2577, (-2), 536, (-23));
  (3327, (-2), 489, (-23)); (3965, (-2), 455, (-23)); (5, 1, 38, (-22)); (1, 2, 226, (-23));
  (2, 2, 13, (-22)); (5, 2, 61, (-23)); (1, 3, 334, (-24))].
(** data/standard/interactions.xml, from line 4600. *)
Definition tab140 := rows_of [
  (1, 1, 0, 0); (1144, (-2), 46, (-22)); (1235, (-2), 64, (-22)); (1304, (-2), 747, (-23));
  (1417, (-2), 867, (-23)); (1512, (-2), 929, (-23)); (1625, (-2), 989, (-23));
  (1744, (-2), 1023, (-23)); (1921, (-2), 1057, (-23)); (2138, (-2), 1075, (-23));
  (2494, (-2), 108, (-22)); (3301, (-2), 1038, (-23)); (4, 1, 98, (-22)); (1, 2, 49, (-22));
  (2, 2, 28, (-22)); (5, 2, 132, (-23)); (1, 3, 73, (-23))].
(** data/standard/interactions.xml, from line 4625. *)
Definition tab141 := rows_of [
  (11, 0, 0, 0); (1126, (-2), 414, (-24)); (1256, (-2), 9, (-22)); (1394, (-2), 128, (-23));
  (1521, (-2), 142, (-23)); (1654, (-2), 142, (-23)); (1885, (-2), 137, (-23));
  (23, 0, 116, (-23)); (2768, (-2), 89, (-23)); (3293, (-2), 69, (-23)); (3881, (-2), 52, (-23));
  (4656, (-2), 37, (-23)); (6243, (-2), 19, (-23)); (801, (-1), 85, (-24)); (1, 2, 9, (-24));
  (2, 2, 0, 0)].
(** data/standard/interactions.xml, from line 4649. *)
Definition tab142 := rows_of [
  (117, (-1), 0, 0); (1359, (-2), 744, (-24)); (1579, (-2), 184, (-23));
  (1875, (-2), 352, (-23)); (2315, (-2), 56, (-22)); (2851, (-2), 707, (-23));
  (3087, (-2), 748, (-23)); (3406, (-2), 787, (-23)); (3794, (-2), 82, (-22));
  (4221, (-2), 839, (-23)); (4811, (-2), 848, (-23)); (5274, (-2), 848, (-23));
  (598, (-1), 838, (-23)); (7284, (-2), 803, (-23)); (1, 2, 719, (-23)); (2, 2, 434, (-23));
  (5, 2, 19, (-22)); (1, 3, 11, (-22))].
(** data/standard/interactions.xml, from line 4675. *)
Definition tab143 := rows_of [
  (344, (-2), 0, 0); (671, (-2), 955, (-28)); (827, (-2), 1144, (-28)); (867, (-2), 1178, (-28));
  (941, (-2), 1198, (-28)); (1024, (-2), 1197, (-28)); (1154, (-2), 1188, (-28));
  (1213, (-2), 1173, (-28)); (1628, (-2), 1057, (-28)); (2784, (-2), 749, (-28));
  (3766, (-2), 573, (-28)); (5366, (-2), 423, (-28)); (775, (-1), 3, (-26));
  (9816, (-2), 233, (-28)); (1352, (-1), 165, (-28)); (2224, (-1), 904, (-29)); (4, 2, 0, 0)].
(** data/standard/interactions.xml, from line 4700. *)
Definition tab144 := rows_of [
  (1212, (-2), 0, 0); (125, (-1), 11, (-22)); (13, 0, 256, (-23)); (135, (-1), 412, (-23));
  (14, 0, 571, (-23)); (145, (-1), 742, (-23)); (15, 0, 906, (-23)); (155, (-1), 107, (-22));
  (16, 0, 123, (-22)); (165, (-1), 138, (-22)); (17, 0, 153, (-22)); (175, (-1), 167, (-22));
  (18, 0, 18, (-21)); (19, 0, 205, (-22)); (2, 1, 227, (-22)); (21, 0, 249, (-22));
  (22, 0, 273, (-22)); (23, 0, 292, (-22)); (24, 0, 309, (-22)); (26, 0, 336, (-22));
  (28, 0, 361, (-22)); (3, 1, 385, (-22)); (32, 0, 404, (-22)); (34, 0, 418, (-22));
  (36, 0, 429, (-22)); (38, 0, 439, (-22)); (4, 1, 447, (-22)); (45, 0, 468, (-22));
  (5, 1, 483, (-22)); (55, 0, 494, (-22)); (6, 1, 503, (-22)); (65, 0, 508, (-22));
  (7, 1, 512, (-22)); (8, 1, 518, (-22)); (9, 1, 526, (-22)); (1, 2, 538, (-22));
  (11, 1, 545, (-22)); (12, 1, 545, (-22)); (13, 1, 541, (-22)); (14, 1, 528, (-22));
  (15, 1, 519, (-22)); (16, 1, 506, (-22)); (18, 1, 483, (-22)); (2, 2, 458, (-22));
  (3, 2, 389, (-22)); (4, 2, 336, (-22)); (6, 2, 26, (-21)); (8, 2, 219, (-22));
  (1, 3, 188, (-22))].
(** data/standard/interactions.xml, from line 4761. *)
Definition tab145 := rows_of [
  (0, 0, 6, (-18)); (1, (-3), 54, (-19)); (2, (-3), 387, (-20)); (1, (-2), 17, (-19));
  (2, (-2), 119, (-20)); (8, (-2), 58, (-20)); (1, (-1), 52, (-20)); (15, (-2), 4, (-19));
  (2, (-1), 31, (-20)); (3, (-1), 203, (-21)); (4, (-1), 143, (-21)); (5, (-1), 109, (-21));
  (1, 0, 555, (-22)); (12, (-1), 502, (-22)); (13, (-1), 49, (-21)); (15, (-1), 483, (-22));
  (17, (-1), 485, (-22)); (2, 0, 51, (-21)); (25, (-1), 585, (-22)); (3, 0, 702, (-22));
  (4, 0, 837, (-22)); (5, 0, 646, (-22)); (7, 0, 66, (-21)); (8, 0, 728, (-22));
  (1, 1, 928, (-22)); (12, 0, 1, (-19)); (15, 0, 101, (-21)); (2, 1, 888, (-22));
  (25, 0, 771, (-22)); (3, 1, 691, (-22)); (4, 1, 574, (-22)); (5, 1, 518, (-22));
  (6, 1, 456, (-22)); (8, 1, 338, (-22)); (1, 2, 258, (-22)); (2, 2, 108, (-22));
  (3, 2, 661, (-23)); (5, 2, 36, (-22)); (1, 3, 14, (-22))].
(** data/standard/interactions.xml, from line 4808. *)
Definition tab146 := rows_of [
  (83, (-3), 0, 0); (844, (-4), 85, (-22)); (862, (-4), 116, (-22)); (932, (-4), 185, (-22));
  (1035, (-4), 23, (-21)); (12, (-2), 26, (-21)); (1382, (-4), 268, (-22));
  (1726, (-4), 262, (-22)); (207, (-3), 248, (-22)); (275, (-3), 218, (-22));
  (345, (-3), 193, (-22)); (5, (-1), 145, (-22)); (7, (-1), 11, (-21)); (9, (-1), 8, (-21));
  (11, (-1), 62, (-22)); (14, (-1), 46, (-22)); (16, (-1), 42, (-22)); (18, (-1), 44, (-22));
  (23, (-1), 7, (-21)); (26, (-1), 93, (-22)); (3, 0, 134, (-22)); (32, (-1), 158, (-22));
  (34, (-1), 175, (-22)); (36, (-1), 18, (-21)); (38, (-1), 179, (-22)); (4, 0, 17, (-21));
  (42, (-1), 152, (-22)); (46, (-1), 105, (-22)); (51, (-1), 57, (-22)); (55, (-1), 51, (-22));
  (6, 0, 5, (-21)); (7, 0, 48, (-22)); (8, 0, 45, (-22)); (1, 1, 2, (-21)); (2, 1, 0, 0)].
(** data/standard/interactions.xml, from line 4851. *)
Definition tab147 := rows_of [
  (167, (-3), 0, 0); (2, (-1), 6, (-21)); (22, (-2), 76, (-22)); (25, (-2), 8, (-21));
  (3, (-1), 78, (-22)); (5, (-1), 64, (-22)); (7, (-1), 53, (-22)); (1, 0, 44, (-22));
  (125, (-2), 44, (-22)); (15, (-1), 44, (-22)); (2, 0, 53, (-22)); (25, (-1), 84, (-22));
  (3, 0, 128, (-22)); (32, (-1), 157, (-22)); (34, (-1), 177, (-22)); (355, (-2), 178, (-22));
  (37, (-1), 175, (-22)); (39, (-1), 16, (-21)); (41, (-1), 128, (-22)); (45, (-1), 88, (-22));
  (49, (-1), 39, (-22)); (52, (-1), 33, (-22)); (6, 0, 27, (-22)); (8, 0, 25, (-22));
  (1, 1, 21, (-22)); (2, 1, 0, 0)].
(** data/standard/interactions.xml, from line 4885. *)
Definition tab148 := rows_of [
  (291, (-3), 0, 0); (297, (-3), 4, (-21)); (303, (-3), 5, (-21)); (327, (-3), 62, (-22));
  (364, (-3), 71, (-22)); (425, (-3), 77, (-22)); (485, (-3), 84, (-22)); (607, (-3), 92, (-22));
  (728, (-3), 97, (-22)); (969, (-3), 99, (-22)); (121, (-2), 95, (-22)); (243, (-2), 66, (-22));
  (485, (-2), 44, (-22)); (968, (-2), 26, (-22)); (182, (-1), 15, (-22)); (364, (-1), 92, (-23));
  (582, (-1), 58, (-23)); (1, 2, 0, 0)].
(** data/standard/interactions.xml, from line 4911. *)
Definition tab149 := rows_of [
  (15, (-1), 0, 0); (195, (-2), 7, (-22)); (25, (-1), 2, (-21)); (3, 0, 41, (-22));
  (356, (-2), 66, (-22)); (41, (-1), 34, (-22)); (45, (-1), 155, (-23)); (506, (-2), 0, 0)].
(** data/standard/interactions.xml, from line 4928. *)
Definition tab150 := rows_of [
  (25, (-1), 0, 0); (3, 0, 32, (-22)); (356, (-2), 54, (-22)); (41, (-1), 34, (-22));
  (45, (-1), 16, (-22)); (506, (-2), 44, (-23)); (6, 0, 0, 0)].
(** data/standard/interactions.xml, from line 4944. *)
Definition tab151 := rows_of [
  (25, (-1), 0, 0); (3, 0, 105, (-23)); (356, (-2), 225, (-23)); (41, (-1), 1, (-21));
  (45, (-1), 0, 0)].
(** data/standard/interactions.xml, from line 4958. *)
Definition tab152 := rows_of [
  (25, (-1), 0, 0); (3, 0, 156, (-23)); (356, (-2), 33, (-22)); (41, (-1), 156, (-23));
  (45, (-1), 0, 0)].
(** data/standard/interactions.xml, from line 4972. *)
Definition tab153 := rows_of [
  (25, (-1), 0, 0); (3, 0, 18, (-22)); (36, (-1), 25, (-22)); (41, (-1), 18, (-22));
  (45, (-1), 0, 0)].
(** data/standard/interactions.xml, from line 4985. *)
Definition tab154 := rows_of [
  (7, 0, 0, 0); (8, 0, 6, (-21)); (85, (-1), 6, (-21)); (11, 0, 0, 0)].
(** data/standard/interactions.xml, from line 4997. *)
Definition tab155 := rows_of [
  (105, (-1), 0, 0); (12, 0, 69, (-22)); (127, (-1), 73, (-22)); (135, (-1), 78, (-22));
  (15, 0, 88, (-22)); (17, 0, 104, (-22)); (2, 1, 124, (-22)); (4, 1, 36, (-21));
  (1, 2, 63, (-21))].
(** data/standard/interactions.xml, from line 5014. *)
Definition tab156 := rows_of [
  (133, (-1), 0, 0); (145, (-1), 6, (-22)); (15, 0, 104, (-23)); (16, 0, 188, (-23));
  (18, 0, 359, (-23)); (2, 1, 532, (-23)); (3, 1, 163, (-22)); (4, 1, 228, (-22));
  (5, 1, 279, (-22)); (7, 1, 343, (-22)); (1, 2, 379, (-22))].
(** data/standard/interactions.xml, from line 5033. *)
Definition tab157 := rows_of [
  (385, (-2), 0, 0); (43, (-1), 14, (-24)); (45, (-1), 14, (-24)); (51, (-1), 0, 0);
  (66, (-1), 0, 0); (72, (-1), 7, (-24)); (82, (-1), 45, (-24)); (84, (-1), 42, (-24));
  (89, (-1), 1, (-23)); (97, (-1), 0, 0)].
(** data/standard/interactions.xml, from line 5065. *)
Definition tab159 := rows_of [
  (466, (-2), 0, 0); (483, (-2), 2965, (-24)); (4865, (-3), 3436, (-24));
  (4945, (-3), 3996, (-24)); (502, (-2), 441, (-23)); (5061, (-3), 4759, (-24));
  (5184, (-3), 5361, (-24)); (5311, (-3), 6018, (-24)); (536, (-2), 6391, (-24));
  (5509, (-3), 688, (-23)); (5707, (-3), 7558, (-24)); (5886, (-3), 8524, (-24));
  (6076, (-3), 9072, (-24)); (6195, (-3), 9525, (-24)); (6301, (-3), 9776, (-24));
  (6446, (-3), 1, (-20)); (6773, (-3), 9642, (-24)); (7164, (-3), 8823, (-24));
  (7882, (-3), 7697, (-24)); (8402, (-3), 6838, (-24)); (8778, (-3), 6294, (-24));
  (9367, (-3), 5374, (-24)); (9686, (-3), 4952, (-24)); (9838, (-3), 4599, (-24));
  (1018, (-2), 4096, (-24)); (1061, (-2), 3598, (-24)); (1106, (-2), 3248, (-24));
  (1197, (-2), 2892, (-24))].
(** data/standard/interactions.xml, from line 5116. *)
Definition tab160 := rows_of [
  (487, (-2), 0, 0); (4879, (-3), 5638, (-25)); (488, (-2), 6181, (-25));
  (4882, (-3), 673, (-24)); (4923, (-3), 7933, (-25)); (4926, (-3), 9332, (-25));
  (4929, (-3), 1098, (-24)); (4932, (-3), 138, (-23)); (4933, (-3), 3821, (-24));
  (4934, (-3), 1522, (-24)); (4935, (-3), 1615, (-24)); (4935, (-3), 4439, (-24));
  (4937, (-3), 1823, (-24)); (4941, (-3), 2322, (-24)); (4944, (-3), 2787, (-24));
  (4948, (-3), 3369, (-24)); (5011, (-3), 5074, (-24)); (5013, (-3), 5671, (-24));
  (5013, (-3), 5875, (-24)); (5014, (-3), 6113, (-24)); (5037, (-3), 6281, (-24));
  (5078, (-3), 6543, (-24)); (5158, (-3), 6317, (-24)); (5275, (-3), 6112, (-24));
  (5306, (-3), 6388, (-24)); (5307, (-3), 6901, (-24)); (5309, (-3), 7522, (-24));
  (5385, (-3), 929, (-23)); (5401, (-3), 797, (-23)); (5402, (-3), 8561, (-24));
  (5403, (-3), 8888, (-24)); (5484, (-3), 9721, (-24)); (5597, (-3), 1, (-20));
  (5861, (-3), 9266, (-24)); (6189, (-3), 7308, (-24)); (6471, (-3), 6255, (-24));
  (6782, (-3), 5263, (-24)); (7115, (-3), 4489, (-24)); (7474, (-3), 3881, (-24));
  (7842, (-3), 339, (-23)); (8451, (-3), 2732, (-24)); (8837, (-3), 2365, (-24));
  (9294, (-3), 2108, (-24)); (9817, (-3), 1788, (-24)); (1042, (-2), 1497, (-24));
  (1095, (-2), 1326, (-24)); (1149, (-2), 1158, (-24)); (123, (-1), 9602, (-25));
  (1306, (-2), 8125, (-25)); (139, (-1), 6844, (-25)); (1458, (-2), 5911, (-25));
  (15, 0, 554, (-24))].
(** data/standard/interactions.xml, from line 5191. *)
Definition tab161 := rows_of [
  (543, (-2), 0, 0); (5662, (-3), 2945, (-25)); (568, (-2), 3845, (-25));
  (5745, (-3), 5326, (-25)); (5745, (-3), 7452, (-25)); (575, (-2), 9653, (-25));
  (5754, (-3), 1181, (-24)); (5778, (-3), 1469, (-24)); (578, (-2), 1689, (-24));
  (5783, (-3), 1923, (-24)); (5786, (-3), 2218, (-24)); (5815, (-3), 2559, (-24));
  (5818, (-3), 2949, (-24)); (5827, (-3), 3395, (-24)); (583, (-2), 3877, (-24));
  (5833, (-3), 4649, (-24)); (5837, (-3), 5619, (-24)); (5841, (-3), 6731, (-24));
  (5843, (-3), 7489, (-24)); (5893, (-3), 8818, (-24)); (594, (-2), 928, (-23));
  (6049, (-3), 9655, (-24)); (6105, (-3), 9843, (-24)); (623, (-2), 1, (-20));
  (6408, (-3), 9875, (-24)); (6539, (-3), 9468, (-24)); (6694, (-3), 8784, (-24));
  (6761, (-3), 828, (-23)); (6922, (-3), 785, (-23)); (7102, (-3), 7184, (-24));
  (7189, (-3), 6818, (-24)); (7443, (-3), 6297, (-24)); (7637, (-3), 5828, (-24));
  (7925, (-3), 55, (-22)); (8215, (-3), 5214, (-24)); (8555, (-3), 5136, (-24));
  (8971, (-3), 5089, (-24)); (9751, (-3), 499, (-23)); (1029, (-2), 4978, (-24));
  (1128, (-2), 4926, (-24)); (1254, (-2), 4924, (-24)); (1336, (-2), 4912, (-24));
  (1436, (-2), 4861, (-24)); (1602, (-2), 4804, (-24)); (1755, (-2), 4759, (-24));
  (1934, (-2), 4758, (-24)); (2183, (-2), 4739, (-24)); (2441, (-2), 4668, (-24));
  (2635, (-2), 4662, (-24)); (2862, (-2), 4592, (-24))].
(** data/standard/interactions.xml, from line 5264. *)
Definition tab162 := rows_of [
  (77, (-1), 0, 0); (7706, (-3), 3513, (-24)); (7916, (-3), 6052, (-24));
  (804, (-2), 6849, (-24)); (8143, (-3), 757, (-23)); (8248, (-3), 8202, (-24));
  (8341, (-3), 8863, (-24)); (8476, (-3), 938, (-23)); (8562, (-3), 9581, (-24));
  (8674, (-3), 9888, (-24)); (876, (-2), 1, (-20)); (8879, (-3), 9923, (-24));
  (8965, (-3), 9917, (-24)); (9076, (-3), 9617, (-24)); (9229, (-3), 9128, (-24));
  (9354, (-3), 8726, (-24)); (9553, (-3), 8108, (-24)); (9689, (-3), 7633, (-24));
  (9896, (-3), 6987, (-24)); (1012, (-2), 6313, (-24)); (1041, (-2), 5719, (-24));
  (1072, (-2), 5129, (-24)); (1103, (-2), 4581, (-24)); (1149, (-2), 3886, (-24));
  (1177, (-2), 3514, (-24)); (1213, (-2), 3209, (-24)); (1244, (-2), 2825, (-24));
  (1289, (-2), 2469, (-24)); (1328, (-2), 2211, (-24)); (1375, (-2), 1902, (-24));
  (1416, (-2), 1913, (-24)); (1454, (-2), 1743, (-24)); (1486, (-2), 1671, (-24));
  (1528, (-2), 1519, (-24)); (1579, (-2), 1466, (-24)); (1618, (-2), 1283, (-24));
  (1683, (-2), 1346, (-24))].
(** data/standard/interactions.xml, from line 5309. *)
Definition tab163 := rows_of [
  (1044, (-2), 0, 0); (1085, (-2), 2221, (-25)); (1095, (-2), 2649, (-25));
  (1096, (-2), 3194, (-25)); (1097, (-2), 3757, (-25)); (1105, (-2), 4266, (-25));
  (1105, (-2), 4795, (-25)); (1116, (-2), 5513, (-25)); (1122, (-2), 6065, (-25));
  (1124, (-2), 6771, (-25)); (1135, (-2), 7627, (-25)); (1148, (-2), 883, (-24));
  (1155, (-2), 1018, (-24)); (117, (-1), 1157, (-24)); (1191, (-2), 1309, (-24));
  (1213, (-2), 1483, (-24)); (1234, (-2), 1629, (-24)); (126, (-1), 1798, (-24));
  (1283, (-2), 1976, (-24)); (131, (-1), 2201, (-24)); (1345, (-2), 2443, (-24));
  (1376, (-2), 2696, (-24)); (1422, (-2), 303, (-23)); (1445, (-2), 32, (-22));
  (1485, (-2), 348, (-23)); (1539, (-2), 388, (-23)); (1612, (-2), 4511, (-24));
  (1686, (-2), 5329, (-24)); (1785, (-2), 5915, (-24)); (187, (-1), 6388, (-24));
  (195, (-1), 6814, (-24)); (2022, (-2), 7179, (-24)); (2133, (-2), 7762, (-24));
  (2242, (-2), 8205, (-24)); (2388, (-2), 8672, (-24)); (2571, (-2), 9408, (-24));
  (2773, (-2), 1, (-20)); (2921, (-2), 1039, (-23))].
