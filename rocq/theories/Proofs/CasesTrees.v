(** Spanning trees of the bundled cases, as certificates that they are connected.  Written by tools/cases.py. *)
From Coq Require Import ZArith List.
From Verif Require Import Model.Cases.
Import ListNotations.
Local Open Scope Z_scope.

Definition trees : list (bundle * list (Z * Z)) :=
  [(case4gs, [(0, 1); (0, 2); (1, 3)]);
   (case6ww, [(1, 2); (1, 4); (1, 5); (2, 3); (2, 6)]);
   (case9, [(1, 4); (4, 5); (5, 6); (6, 3); (6, 7); (7, 8); (8, 2); (8, 9)]);
   (case9Q, [(1, 4); (4, 5); (5, 6); (6, 3); (6, 7); (7, 8); (8, 2); (8, 9)]);
   (case14, [(1, 2); (1, 5); (2, 3); (2, 4); (4, 7); (4, 9); (5, 6); (6, 11); (6, 12); (6, 13); (7, 8); (9, 10); (9, 14)]);
   (case24_ieee_rts, [(13, 11); (11, 14); (13, 12); (12, 23); (14, 16); (16, 15); (15, 21); (15, 24); (16, 17); (16, 19); (17, 18); (17, 22); (19, 20); (24, 3); (11, 9); (11, 10); (3, 1); (1, 5); (9, 4); (10, 6); (9, 8); (1, 2); (8, 7)]);
   (case30, [(1, 2); (1, 3); (2, 4); (2, 5); (2, 6); (5, 7); (6, 8); (6, 9); (6, 10); (9, 11); (4, 12); (12, 13); (12, 14); (12, 15); (12, 16); (16, 17); (15, 18); (18, 19); (19, 20); (10, 21); (10, 22); (15, 23); (22, 24); (24, 25); (25, 26); (25, 27); (27, 28); (27, 29); (27, 30)]);
   (case30Q, [(1, 2); (1, 3); (2, 4); (2, 5); (2, 6); (5, 7); (6, 8); (6, 9); (6, 10); (9, 11); (4, 12); (12, 13); (12, 14); (12, 15); (12, 16); (16, 17); (15, 18); (18, 19); (19, 20); (10, 21); (10, 22); (15, 23); (22, 24); (24, 25); (25, 26); (25, 27); (27, 28); (27, 29); (27, 30)]);
   (case30pwl, [(1, 2); (1, 3); (2, 4); (2, 5); (2, 6); (5, 7); (6, 8); (6, 9); (6, 10); (9, 11); (4, 12); (12, 13); (12, 14); (12, 15); (12, 16); (16, 17); (15, 18); (18, 19); (19, 20); (10, 21); (10, 22); (15, 23); (22, 24); (24, 25); (25, 26); (25, 27); (27, 28); (27, 29); (27, 30)]);
   (case39, [(31, 6); (6, 5); (5, 8); (6, 7); (6, 11); (8, 9); (9, 39); (11, 10); (10, 13); (10, 32); (11, 12); (13, 14); (14, 15); (15, 16); (16, 17); (16, 19); (16, 21); (16, 24); (17, 18); (17, 27); (19, 20); (19, 33); (20, 34); (21, 22); (22, 23); (22, 35); (23, 36); (27, 26); (26, 28); (26, 29); (29, 38); (39, 1); (18, 3); (5, 4); (26, 25); (25, 37); (1, 2); (2, 30)]);
   (case57, [(1, 2); (2, 3); (3, 4); (4, 5); (4, 6); (6, 7); (6, 8); (8, 9); (9, 10); (9, 11); (9, 12); (9, 13); (13, 14); (13, 15); (1, 16); (1, 17); (4, 18); (18, 19); (19, 20); (20, 21); (21, 22); (22, 23); (23, 24); (24, 25); (24, 26); (26, 27); (27, 28); (28, 29); (25, 30); (30, 31); (31, 32); (32, 33); (32, 34); (34, 35); (35, 36); (36, 37); (37, 38); (37, 39); (36, 40); (11, 41); (41, 42); (41, 43); (38, 44); (15, 45); (14, 46); (46, 47); (47, 48); (48, 49); (49, 50); (50, 51); (29, 52); (52, 53); (53, 54); (54, 55); (40, 56); (39, 57)]);
   (case118, [(69, 47); (69, 49); (69, 68); (69, 70); (70, 24); (70, 71); (24, 72); (71, 73); (70, 74); (70, 75); (69, 77); (77, 78); (78, 79); (77, 80); (68, 81); (77, 82); (82, 83); (83, 84); (83, 85); (85, 86); (86, 87); (85, 88); (85, 89); (89, 90); (90, 91); (89, 92); (92, 93); (92, 94); (94, 95); (80, 96); (80, 97); (80, 98); (80, 99); (92, 100); (100, 101); (92, 102); (100, 103); (100, 104); (103, 105); (100, 106); (105, 107); (105, 108); (108, 109); (103, 110); (110, 111); (110, 112); (68, 116); (75, 118); (118, 76); (24, 23); (23, 25); (25, 26); (25, 27); (27, 28); (28, 29); (26, 30); (29, 31); (23, 32); (30, 38); (47, 46); (46, 48); (49, 42); (49, 45); (49, 50); (49, 51); (51, 52); (52, 53); (53, 54); (54, 55); (54, 56); (56, 57); (56, 58); (54, 59); (59, 60); (59, 61); (60, 62); (59, 63); (63, 64); (38, 65); (49, 66); (62, 67); (32, 113); (32, 114); (27, 115); (23, 22); (30, 17); (30, 8); (38, 37); (37, 39); (37, 40); (40, 41); (45, 44); (8, 9); (8, 5); (9, 10); (5, 11); (11, 12); (12, 2); (12, 3); (12, 7); (11, 13); (12, 14); (13, 15); (12, 16); (17, 18); (18, 19); (19, 20); (20, 21); (15, 33); (19, 34); (37, 35); (34, 36); (44, 43); (12, 117); (2, 1); (5, 4); (5, 6)])].
