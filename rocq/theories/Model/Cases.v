(** The bundled cases, with the numbers as written in pypower/case*.py.  Written by tools/cases.py.
    A number is a numerator over a positive denominator. *)
From Coq Require Import String.
From Verif Require Import Lib.Fld Model.Ext2int.
Local Open Scope Z_scope.

Definition dec : Type := (Z * positive)%type.
Record bundle : Type := Bundle {
  b_name : string; b_base : Z; b_bus : list (list dec); b_gen : list (list dec); b_branch : list (list dec);
  b_areas : option (list (list dec)); b_gencost : option (list (list dec)) }.

Definition value {K : Type} {F : Fld K} (a : dec) : K :=
  if Pos.eqb (snd a) 1 then fofZ (fst a) else (fofZ (fst a) / fofZ (Zpos (snd a)))%K.
Definition values {K : Type} {F : Fld K} : list (list dec) -> list (list K) := map (map value).
(** the case as the functions of the library get it *)
Definition case_of {K : Type} {F : Fld K} (b : bundle) : ppc_of K :=
  {| p_bus := values (b_bus b); p_gen := values (b_gen b); p_branch := values (b_branch b);
     p_gencost := option_map values (b_gencost b); p_areas := option_map values (b_areas b);
     p_A := None; p_N := None; p_order := None |}.

Local Notation q n d := (n%Z, d%positive).
Local Notation i n := (n%Z, 1%positive).

(** pypower/case4gs.py *)
Definition case4gs : bundle := Bundle "case4gs" 100
   [[i 0; i 3; i 50; q 3099 100; i 0; i 0; i 1; i 1; i 0; i 230; i 1; q 11 10; q 9 10];
    [i 1; i 1; i 170; q 2107 20; i 0; i 0; i 1; i 1; i 0; i 230; i 1; q 11 10; q 9 10];
    [i 2; i 1; i 200; q 6197 50; i 0; i 0; i 1; i 1; i 0; i 230; i 1; q 11 10; q 9 10];
    [i 3; i 2; i 80; q 2479 50; i 0; i 0; i 1; i 1; i 0; i 230; i 1; q 11 10; q 9 10]]
   [[i 3; i 318; i 0; i 100; i (-100); q 51 50; i 100; i 1; i 318; i 0; i 0; i 0; i 0; i 0; i 0; i 0; i 0; i 0; i 0; i 0; i 0];
    [i 0; i 0; i 0; i 100; i (-100); i 1; i 100; i 1; i 0; i 0; i 0; i 0; i 0; i 0; i 0; i 0; i 0; i 0; i 0; i 0; i 0]]
   [[i 0; i 1; q 63 6250; q 63 1250; q 41 400; i 250; i 250; i 250; i 0; i 0; i 1; i (-360); i 360];
    [i 0; i 2; q 93 12500; q 93 2500; q 31 400; i 250; i 250; i 250; i 0; i 0; i 1; i (-360); i 360];
    [i 1; i 3; q 93 12500; q 93 2500; q 31 400; i 250; i 250; i 250; i 0; i 0; i 1; i (-360); i 360];
    [i 2; i 3; q 159 12500; q 159 2500; q 51 400; i 250; i 250; i 250; i 0; i 0; i 1; i (-360); i 360]]
   (None)
   (None).

(** pypower/case6ww.py *)
Definition case6ww : bundle := Bundle "case6ww" 100
   [[i 1; i 3; i 0; i 0; i 0; i 0; i 1; q 21 20; i 0; i 230; i 1; q 21 20; q 21 20];
    [i 2; i 2; i 0; i 0; i 0; i 0; i 1; q 21 20; i 0; i 230; i 1; q 21 20; q 21 20];
    [i 3; i 2; i 0; i 0; i 0; i 0; i 1; q 107 100; i 0; i 230; i 1; q 107 100; q 107 100];
    [i 4; i 1; i 70; i 70; i 0; i 0; i 1; i 1; i 0; i 230; i 1; q 21 20; q 19 20];
    [i 5; i 1; i 70; i 70; i 0; i 0; i 1; i 1; i 0; i 230; i 1; q 21 20; q 19 20];
    [i 6; i 1; i 70; i 70; i 0; i 0; i 1; i 1; i 0; i 230; i 1; q 21 20; q 19 20]]
   [[i 1; i 0; i 0; i 100; i (-100); q 21 20; i 100; i 1; i 200; i 50; i 0; i 0; i 0; i 0; i 0; i 0; i 0; i 0; i 0; i 0; i 0];
    [i 2; i 50; i 0; i 100; i (-100); q 21 20; i 100; i 1; i 150; q 75 2; i 0; i 0; i 0; i 0; i 0; i 0; i 0; i 0; i 0; i 0; i 0];
    [i 3; i 60; i 0; i 100; i (-100); q 107 100; i 100; i 1; i 180; i 45; i 0; i 0; i 0; i 0; i 0; i 0; i 0; i 0; i 0; i 0; i 0]]
   [[i 1; i 2; q 1 10; q 1 5; q 1 25; i 40; i 40; i 40; i 0; i 0; i 1; i (-360); i 360];
    [i 1; i 4; q 1 20; q 1 5; q 1 25; i 60; i 60; i 60; i 0; i 0; i 1; i (-360); i 360];
    [i 1; i 5; q 2 25; q 3 10; q 3 50; i 40; i 40; i 40; i 0; i 0; i 1; i (-360); i 360];
    [i 2; i 3; q 1 20; q 1 4; q 3 50; i 40; i 40; i 40; i 0; i 0; i 1; i (-360); i 360];
    [i 2; i 4; q 1 20; q 1 10; q 1 50; i 60; i 60; i 60; i 0; i 0; i 1; i (-360); i 360];
    [i 2; i 5; q 1 10; q 3 10; q 1 25; i 30; i 30; i 30; i 0; i 0; i 1; i (-360); i 360];
    [i 2; i 6; q 7 100; q 1 5; q 1 20; i 90; i 90; i 90; i 0; i 0; i 1; i (-360); i 360];
    [i 3; i 5; q 3 25; q 13 50; q 1 20; i 70; i 70; i 70; i 0; i 0; i 1; i (-360); i 360];
    [i 3; i 6; q 1 50; q 1 10; q 1 50; i 80; i 80; i 80; i 0; i 0; i 1; i (-360); i 360];
    [i 4; i 5; q 1 5; q 2 5; q 2 25; i 20; i 20; i 20; i 0; i 0; i 1; i (-360); i 360];
    [i 5; i 6; q 1 10; q 3 10; q 3 50; i 40; i 40; i 40; i 0; i 0; i 1; i (-360); i 360]]
   (None)
   (Some
   [[i 2; i 0; i 0; i 3; q 533 100000; q 11669 1000; q 2131 10];
    [i 2; i 0; i 0; i 3; q 889 100000; q 10333 1000; i 200];
    [i 2; i 0; i 0; i 3; q 741 100000; q 10833 1000; i 240]]).

(** pypower/case9.py *)
Definition case9 : bundle := Bundle "case9" 100
   [[i 1; i 3; i 0; i 0; i 0; i 0; i 1; i 1; i 0; i 345; i 1; q 11 10; q 9 10];
    [i 2; i 2; i 0; i 0; i 0; i 0; i 1; i 1; i 0; i 345; i 1; q 11 10; q 9 10];
    [i 3; i 2; i 0; i 0; i 0; i 0; i 1; i 1; i 0; i 345; i 1; q 11 10; q 9 10];
    [i 4; i 1; i 0; i 0; i 0; i 0; i 1; i 1; i 0; i 345; i 1; q 11 10; q 9 10];
    [i 5; i 1; i 90; i 30; i 0; i 0; i 1; i 1; i 0; i 345; i 1; q 11 10; q 9 10];
    [i 6; i 1; i 0; i 0; i 0; i 0; i 1; i 1; i 0; i 345; i 1; q 11 10; q 9 10];
    [i 7; i 1; i 100; i 35; i 0; i 0; i 1; i 1; i 0; i 345; i 1; q 11 10; q 9 10];
    [i 8; i 1; i 0; i 0; i 0; i 0; i 1; i 1; i 0; i 345; i 1; q 11 10; q 9 10];
    [i 9; i 1; i 125; i 50; i 0; i 0; i 1; i 1; i 0; i 345; i 1; q 11 10; q 9 10]]
   [[i 1; i 0; i 0; i 300; i (-300); i 1; i 100; i 1; i 250; i 10; i 0; i 0; i 0; i 0; i 0; i 0; i 0; i 0; i 0; i 0; i 0];
    [i 2; i 163; i 0; i 300; i (-300); i 1; i 100; i 1; i 300; i 10; i 0; i 0; i 0; i 0; i 0; i 0; i 0; i 0; i 0; i 0; i 0];
    [i 3; i 85; i 0; i 300; i (-300); i 1; i 100; i 1; i 270; i 10; i 0; i 0; i 0; i 0; i 0; i 0; i 0; i 0; i 0; i 0; i 0]]
   [[i 1; i 4; i 0; q 36 625; i 0; i 250; i 250; i 250; i 0; i 0; i 1; i (-360); i 360];
    [i 4; i 5; q 17 1000; q 23 250; q 79 500; i 250; i 250; i 250; i 0; i 0; i 1; i (-360); i 360];
    [i 5; i 6; q 39 1000; q 17 100; q 179 500; i 150; i 150; i 150; i 0; i 0; i 1; i (-360); i 360];
    [i 3; i 6; i 0; q 293 5000; i 0; i 300; i 300; i 300; i 0; i 0; i 1; i (-360); i 360];
    [i 6; i 7; q 119 10000; q 63 625; q 209 1000; i 150; i 150; i 150; i 0; i 0; i 1; i (-360); i 360];
    [i 7; i 8; q 17 2000; q 9 125; q 149 1000; i 250; i 250; i 250; i 0; i 0; i 1; i (-360); i 360];
    [i 8; i 2; i 0; q 1 16; i 0; i 250; i 250; i 250; i 0; i 0; i 1; i (-360); i 360];
    [i 8; i 9; q 4 125; q 161 1000; q 153 500; i 250; i 250; i 250; i 0; i 0; i 1; i (-360); i 360];
    [i 9; i 4; q 1 100; q 17 200; q 22 125; i 250; i 250; i 250; i 0; i 0; i 1; i (-360); i 360]]
   (Some
   [[i 1; i 5]])
   (Some
   [[i 2; i 1500; i 0; i 3; q 11 100; i 5; i 150];
    [i 2; i 2000; i 0; i 3; q 17 200; q 6 5; i 600];
    [i 2; i 3000; i 0; i 3; q 49 400; i 1; i 335]]).

(** pypower/case9Q.py *)
Definition case9Q : bundle := Bundle "case9Q" 100
   [[i 1; i 3; i 0; i 0; i 0; i 0; i 1; i 1; i 0; i 345; i 1; q 11 10; q 9 10];
    [i 2; i 2; i 0; i 0; i 0; i 0; i 1; i 1; i 0; i 345; i 1; q 11 10; q 9 10];
    [i 3; i 2; i 0; i 0; i 0; i 0; i 1; i 1; i 0; i 345; i 1; q 11 10; q 9 10];
    [i 4; i 1; i 0; i 0; i 0; i 0; i 1; i 1; i 0; i 345; i 1; q 11 10; q 9 10];
    [i 5; i 1; i 90; i 30; i 0; i 0; i 1; i 1; i 0; i 345; i 1; q 11 10; q 9 10];
    [i 6; i 1; i 0; i 0; i 0; i 0; i 1; i 1; i 0; i 345; i 1; q 11 10; q 9 10];
    [i 7; i 1; i 100; i 35; i 0; i 0; i 1; i 1; i 0; i 345; i 1; q 11 10; q 9 10];
    [i 8; i 1; i 0; i 0; i 0; i 0; i 1; i 1; i 0; i 345; i 1; q 11 10; q 9 10];
    [i 9; i 1; i 125; i 50; i 0; i 0; i 1; i 1; i 0; i 345; i 1; q 11 10; q 9 10]]
   [[i 1; i 0; i 0; i 300; i (-300); i 1; i 100; i 1; i 250; i 10; i 0; i 0; i 0; i 0; i 0; i 0; i 0; i 0; i 0; i 0; i 0];
    [i 2; i 163; i 0; i 300; i (-300); i 1; i 100; i 1; i 300; i 10; i 0; i 0; i 0; i 0; i 0; i 0; i 0; i 0; i 0; i 0; i 0];
    [i 3; i 85; i 0; i 300; i (-300); i 1; i 100; i 1; i 270; i 10; i 0; i 0; i 0; i 0; i 0; i 0; i 0; i 0; i 0; i 0; i 0]]
   [[i 1; i 4; i 0; q 36 625; i 0; i 250; i 250; i 250; i 0; i 0; i 1; i (-360); i 360];
    [i 4; i 5; q 17 1000; q 23 250; q 79 500; i 250; i 250; i 250; i 0; i 0; i 1; i (-360); i 360];
    [i 5; i 6; q 39 1000; q 17 100; q 179 500; i 150; i 150; i 150; i 0; i 0; i 1; i (-360); i 360];
    [i 3; i 6; i 0; q 293 5000; i 0; i 300; i 300; i 300; i 0; i 0; i 1; i (-360); i 360];
    [i 6; i 7; q 119 10000; q 63 625; q 209 1000; i 150; i 150; i 150; i 0; i 0; i 1; i (-360); i 360];
    [i 7; i 8; q 17 2000; q 9 125; q 149 1000; i 250; i 250; i 250; i 0; i 0; i 1; i (-360); i 360];
    [i 8; i 2; i 0; q 1 16; i 0; i 250; i 250; i 250; i 0; i 0; i 1; i (-360); i 360];
    [i 8; i 9; q 4 125; q 161 1000; q 153 500; i 250; i 250; i 250; i 0; i 0; i 1; i (-360); i 360];
    [i 9; i 4; q 1 100; q 17 200; q 22 125; i 250; i 250; i 250; i 0; i 0; i 1; i (-360); i 360]]
   (Some
   [[i 1; i 5]])
   (Some
   [[i 2; i 1500; i 0; i 3; q 11 100; i 5; i 150];
    [i 2; i 2000; i 0; i 3; q 17 200; q 6 5; i 600];
    [i 2; i 3000; i 0; i 3; q 49 400; i 1; i 335];
    [i 2; i 0; i 0; i 3; q 1 5; i 0; i 0];
    [i 2; i 0; i 0; i 3; q 1 20; i 0; i 0];
    [i 2; i 0; i 0; i 3; q 3 10; i 0; i 0]]).

(** pypower/case14.py *)
Definition case14 : bundle := Bundle "case14" 100
   [[i 1; i 3; i 0; i 0; i 0; i 0; i 1; q 53 50; i 0; i 0; i 1; q 53 50; q 47 50];
    [i 2; i 2; q 217 10; q 127 10; i 0; i 0; i 1; q 209 200; q (-249) 50; i 0; i 1; q 53 50; q 47 50];
    [i 3; i 2; q 471 5; i 19; i 0; i 0; i 1; q 101 100; q (-318) 25; i 0; i 1; q 53 50; q 47 50];
    [i 4; i 1; q 239 5; q (-39) 10; i 0; i 0; i 1; q 1019 1000; q (-1033) 100; i 0; i 1; q 53 50; q 47 50];
    [i 5; i 1; q 38 5; q 8 5; i 0; i 0; i 1; q 51 50; q (-439) 50; i 0; i 1; q 53 50; q 47 50];
    [i 6; i 2; q 56 5; q 15 2; i 0; i 0; i 1; q 107 100; q (-711) 50; i 0; i 1; q 53 50; q 47 50];
    [i 7; i 1; i 0; i 0; i 0; i 0; i 1; q 531 500; q (-1337) 100; i 0; i 1; q 53 50; q 47 50];
    [i 8; i 2; i 0; i 0; i 0; i 0; i 1; q 109 100; q (-334) 25; i 0; i 1; q 53 50; q 47 50];
    [i 9; i 1; q 59 2; q 83 5; i 0; i 19; i 1; q 132 125; q (-747) 50; i 0; i 1; q 53 50; q 47 50];
    [i 10; i 1; i 9; q 29 5; i 0; i 0; i 1; q 1051 1000; q (-151) 10; i 0; i 1; q 53 50; q 47 50];
    [i 11; i 1; q 7 2; q 9 5; i 0; i 0; i 1; q 1057 1000; q (-1479) 100; i 0; i 1; q 53 50; q 47 50];
    [i 12; i 1; q 61 10; q 8 5; i 0; i 0; i 1; q 211 200; q (-1507) 100; i 0; i 1; q 53 50; q 47 50];
    [i 13; i 1; q 27 2; q 29 5; i 0; i 0; i 1; q 21 20; q (-379) 25; i 0; i 1; q 53 50; q 47 50];
    [i 14; i 1; q 149 10; i 5; i 0; i 0; i 1; q 259 250; q (-401) 25; i 0; i 1; q 53 50; q 47 50]]
   [[i 1; q 1162 5; q (-169) 10; i 10; i 0; q 53 50; i 100; i 1; q 1662 5; i 0; i 0; i 0; i 0; i 0; i 0; i 0; i 0; i 0; i 0; i 0; i 0];
    [i 2; i 40; q 212 5; i 50; i (-40); q 209 200; i 100; i 1; i 140; i 0; i 0; i 0; i 0; i 0; i 0; i 0; i 0; i 0; i 0; i 0; i 0];
    [i 3; i 0; q 117 5; i 40; i 0; q 101 100; i 100; i 1; i 100; i 0; i 0; i 0; i 0; i 0; i 0; i 0; i 0; i 0; i 0; i 0; i 0];
    [i 6; i 0; q 61 5; i 24; i (-6); q 107 100; i 100; i 1; i 100; i 0; i 0; i 0; i 0; i 0; i 0; i 0; i 0; i 0; i 0; i 0; i 0];
    [i 8; i 0; q 87 5; i 24; i (-6); q 109 100; i 100; i 1; i 100; i 0; i 0; i 0; i 0; i 0; i 0; i 0; i 0; i 0; i 0; i 0; i 0]]
   [[i 1; i 2; q 969 50000; q 5917 100000; q 33 625; i 9900; i 0; i 0; i 0; i 0; i 1; i (-360); i 360];
    [i 1; i 5; q 5403 100000; q 697 3125; q 123 2500; i 9900; i 0; i 0; i 0; i 0; i 1; i (-360); i 360];
    [i 2; i 3; q 4699 100000; q 19797 100000; q 219 5000; i 9900; i 0; i 0; i 0; i 0; i 1; i (-360); i 360];
    [i 2; i 4; q 5811 100000; q 551 3125; q 17 500; i 9900; i 0; i 0; i 0; i 0; i 1; i (-360); i 360];
    [i 2; i 5; q 1139 20000; q 4347 25000; q 173 5000; i 9900; i 0; i 0; i 0; i 0; i 1; i (-360); i 360];
    [i 3; i 4; q 6701 100000; q 17103 100000; q 8 625; i 9900; i 0; i 0; i 0; i 0; i 1; i (-360); i 360];
    [i 4; i 5; q 267 20000; q 4211 100000; i 0; i 9900; i 0; i 0; i 0; i 0; i 1; i (-360); i 360];
    [i 4; i 7; i 0; q 1307 6250; i 0; i 9900; i 0; i 0; q 489 500; i 0; i 1; i (-360); i 360];
    [i 4; i 9; i 0; q 27809 50000; i 0; i 9900; i 0; i 0; q 969 1000; i 0; i 1; i (-360); i 360];
    [i 5; i 6; i 0; q 12601 50000; i 0; i 9900; i 0; i 0; q 233 250; i 0; i 1; i (-360); i 360];
    [i 6; i 11; q 4749 50000; q 1989 10000; i 0; i 9900; i 0; i 0; i 0; i 0; i 1; i (-360); i 360];
    [i 6; i 12; q 12291 100000; q 25581 100000; i 0; i 9900; i 0; i 0; i 0; i 0; i 1; i (-360); i 360];
    [i 6; i 13; q 1323 20000; q 13027 100000; i 0; i 9900; i 0; i 0; i 0; i 0; i 1; i (-360); i 360];
    [i 7; i 8; i 0; q 3523 20000; i 0; i 9900; i 0; i 0; i 0; i 0; i 1; i (-360); i 360];
    [i 7; i 9; i 0; q 11001 100000; i 0; i 9900; i 0; i 0; i 0; i 0; i 1; i (-360); i 360];
    [i 9; i 10; q 3181 100000; q 169 2000; i 0; i 9900; i 0; i 0; i 0; i 0; i 1; i (-360); i 360];
    [i 9; i 14; q 12711 100000; q 13519 50000; i 0; i 9900; i 0; i 0; i 0; i 0; i 1; i (-360); i 360];
    [i 10; i 11; q 1641 20000; q 19207 100000; i 0; i 9900; i 0; i 0; i 0; i 0; i 1; i (-360); i 360];
    [i 12; i 13; q 5523 25000; q 4997 25000; i 0; i 9900; i 0; i 0; i 0; i 0; i 1; i (-360); i 360];
    [i 13; i 14; q 17093 100000; q 17401 50000; i 0; i 9900; i 0; i 0; i 0; i 0; i 1; i (-360); i 360]]
   (None)
   (Some
   [[i 2; i 0; i 0; i 3; q 430293 10000000; i 20; i 0];
    [i 2; i 0; i 0; i 3; q 1 4; i 20; i 0];
    [i 2; i 0; i 0; i 3; q 1 100; i 40; i 0];
    [i 2; i 0; i 0; i 3; q 1 100; i 40; i 0];
    [i 2; i 0; i 0; i 3; q 1 100; i 40; i 0]]).

(** pypower/case24_ieee_rts.py *)
Definition case24_ieee_rts : bundle := Bundle "case24_ieee_rts" 100
   [[i 1; i 2; i 108; i 22; i 0; i 0; i 1; i 1; i 0; i 138; i 1; q 21 20; q 19 20];
    [i 2; i 2; i 97; i 20; i 0; i 0; i 1; i 1; i 0; i 138; i 1; q 21 20; q 19 20];
    [i 3; i 1; i 180; i 37; i 0; i 0; i 1; i 1; i 0; i 138; i 1; q 21 20; q 19 20];
    [i 4; i 1; i 74; i 15; i 0; i 0; i 1; i 1; i 0; i 138; i 1; q 21 20; q 19 20];
    [i 5; i 1; i 71; i 14; i 0; i 0; i 1; i 1; i 0; i 138; i 1; q 21 20; q 19 20];
    [i 6; i 1; i 136; i 28; i 0; i (-100); i 2; i 1; i 0; i 138; i 1; q 21 20; q 19 20];
    [i 7; i 2; i 125; i 25; i 0; i 0; i 2; i 1; i 0; i 138; i 1; q 21 20; q 19 20];
    [i 8; i 1; i 171; i 35; i 0; i 0; i 2; i 1; i 0; i 138; i 1; q 21 20; q 19 20];
    [i 9; i 1; i 175; i 36; i 0; i 0; i 1; i 1; i 0; i 138; i 1; q 21 20; q 19 20];
    [i 10; i 1; i 195; i 40; i 0; i 0; i 2; i 1; i 0; i 138; i 1; q 21 20; q 19 20];
    [i 11; i 1; i 0; i 0; i 0; i 0; i 3; i 1; i 0; i 230; i 1; q 21 20; q 19 20];
    [i 12; i 1; i 0; i 0; i 0; i 0; i 3; i 1; i 0; i 230; i 1; q 21 20; q 19 20];
    [i 13; i 3; i 265; i 54; i 0; i 0; i 3; i 1; i 0; i 230; i 1; q 21 20; q 19 20];
    [i 14; i 2; i 194; i 39; i 0; i 0; i 3; i 1; i 0; i 230; i 1; q 21 20; q 19 20];
    [i 15; i 2; i 317; i 64; i 0; i 0; i 4; i 1; i 0; i 230; i 1; q 21 20; q 19 20];
    [i 16; i 2; i 100; i 20; i 0; i 0; i 4; i 1; i 0; i 230; i 1; q 21 20; q 19 20];
    [i 17; i 1; i 0; i 0; i 0; i 0; i 4; i 1; i 0; i 230; i 1; q 21 20; q 19 20];
    [i 18; i 2; i 333; i 68; i 0; i 0; i 4; i 1; i 0; i 230; i 1; q 21 20; q 19 20];
    [i 19; i 1; i 181; i 37; i 0; i 0; i 3; i 1; i 0; i 230; i 1; q 21 20; q 19 20];
    [i 20; i 1; i 128; i 26; i 0; i 0; i 3; i 1; i 0; i 230; i 1; q 21 20; q 19 20];
    [i 21; i 2; i 0; i 0; i 0; i 0; i 4; i 1; i 0; i 230; i 1; q 21 20; q 19 20];
    [i 22; i 2; i 0; i 0; i 0; i 0; i 4; i 1; i 0; i 230; i 1; q 21 20; q 19 20];
    [i 23; i 2; i 0; i 0; i 0; i 0; i 3; i 1; i 0; i 230; i 1; q 21 20; q 19 20];
    [i 24; i 1; i 0; i 0; i 0; i 0; i 4; i 1; i 0; i 230; i 1; q 21 20; q 19 20]]
   [[i 1; i 10; i 0; i 10; i 0; q 207 200; i 100; i 1; i 20; i 16; i 0; i 0; i 0; i 0; i 0; i 0; i 0; i 0; i 0; i 0; i 0];
    [i 1; i 10; i 0; i 10; i 0; q 207 200; i 100; i 1; i 20; i 16; i 0; i 0; i 0; i 0; i 0; i 0; i 0; i 0; i 0; i 0; i 0];
    [i 1; i 76; i 0; i 30; i (-25); q 207 200; i 100; i 1; i 76; q 76 5; i 0; i 0; i 0; i 0; i 0; i 0; i 0; i 0; i 0; i 0; i 0];
    [i 1; i 76; i 0; i 30; i (-25); q 207 200; i 100; i 1; i 76; q 76 5; i 0; i 0; i 0; i 0; i 0; i 0; i 0; i 0; i 0; i 0; i 0];
    [i 2; i 10; i 0; i 10; i 0; q 207 200; i 100; i 1; i 20; i 16; i 0; i 0; i 0; i 0; i 0; i 0; i 0; i 0; i 0; i 0; i 0];
    [i 2; i 10; i 0; i 10; i 0; q 207 200; i 100; i 1; i 20; i 16; i 0; i 0; i 0; i 0; i 0; i 0; i 0; i 0; i 0; i 0; i 0];
    [i 2; i 76; i 0; i 30; i (-25); q 207 200; i 100; i 1; i 76; q 76 5; i 0; i 0; i 0; i 0; i 0; i 0; i 0; i 0; i 0; i 0; i 0];
    [i 2; i 76; i 0; i 30; i (-25); q 207 200; i 100; i 1; i 76; q 76 5; i 0; i 0; i 0; i 0; i 0; i 0; i 0; i 0; i 0; i 0; i 0];
    [i 7; i 80; i 0; i 60; i 0; q 41 40; i 100; i 1; i 100; i 25; i 0; i 0; i 0; i 0; i 0; i 0; i 0; i 0; i 0; i 0; i 0];
    [i 7; i 80; i 0; i 60; i 0; q 41 40; i 100; i 1; i 100; i 25; i 0; i 0; i 0; i 0; i 0; i 0; i 0; i 0; i 0; i 0; i 0];
    [i 7; i 80; i 0; i 60; i 0; q 41 40; i 100; i 1; i 100; i 25; i 0; i 0; i 0; i 0; i 0; i 0; i 0; i 0; i 0; i 0; i 0];
    [i 13; q 951 10; i 0; i 80; i 0; q 51 50; i 100; i 1; i 197; i 69; i 0; i 0; i 0; i 0; i 0; i 0; i 0; i 0; i 0; i 0; i 0];
    [i 13; q 951 10; i 0; i 80; i 0; q 51 50; i 100; i 1; i 197; i 69; i 0; i 0; i 0; i 0; i 0; i 0; i 0; i 0; i 0; i 0; i 0];
    [i 13; q 951 10; i 0; i 80; i 0; q 51 50; i 100; i 1; i 197; i 69; i 0; i 0; i 0; i 0; i 0; i 0; i 0; i 0; i 0; i 0; i 0];
    [i 14; i 0; q 353 10; i 200; i (-50); q 49 50; i 100; i 1; i 0; i 0; i 0; i 0; i 0; i 0; i 0; i 0; i 0; i 0; i 0; i 0; i 0];
    [i 15; i 12; i 0; i 6; i 0; q 507 500; i 100; i 1; i 12; q 12 5; i 0; i 0; i 0; i 0; i 0; i 0; i 0; i 0; i 0; i 0; i 0];
    [i 15; i 12; i 0; i 6; i 0; q 507 500; i 100; i 1; i 12; q 12 5; i 0; i 0; i 0; i 0; i 0; i 0; i 0; i 0; i 0; i 0; i 0];
    [i 15; i 12; i 0; i 6; i 0; q 507 500; i 100; i 1; i 12; q 12 5; i 0; i 0; i 0; i 0; i 0; i 0; i 0; i 0; i 0; i 0; i 0];
    [i 15; i 12; i 0; i 6; i 0; q 507 500; i 100; i 1; i 12; q 12 5; i 0; i 0; i 0; i 0; i 0; i 0; i 0; i 0; i 0; i 0; i 0];
    [i 15; i 12; i 0; i 6; i 0; q 507 500; i 100; i 1; i 12; q 12 5; i 0; i 0; i 0; i 0; i 0; i 0; i 0; i 0; i 0; i 0; i 0];
    [i 15; i 155; i 0; i 80; i (-50); q 507 500; i 100; i 1; i 155; q 543 10; i 0; i 0; i 0; i 0; i 0; i 0; i 0; i 0; i 0; i 0; i 0];
    [i 16; i 155; i 0; i 80; i (-50); q 1017 1000; i 100; i 1; i 155; q 543 10; i 0; i 0; i 0; i 0; i 0; i 0; i 0; i 0; i 0; i 0; i 0];
    [i 18; i 400; i 0; i 200; i (-50); q 21 20; i 100; i 1; i 400; i 100; i 0; i 0; i 0; i 0; i 0; i 0; i 0; i 0; i 0; i 0; i 0];
    [i 21; i 400; i 0; i 200; i (-50); q 21 20; i 100; i 1; i 400; i 100; i 0; i 0; i 0; i 0; i 0; i 0; i 0; i 0; i 0; i 0; i 0];
    [i 22; i 50; i 0; i 16; i (-10); q 21 20; i 100; i 1; i 50; i 10; i 0; i 0; i 0; i 0; i 0; i 0; i 0; i 0; i 0; i 0; i 0];
    [i 22; i 50; i 0; i 16; i (-10); q 21 20; i 100; i 1; i 50; i 10; i 0; i 0; i 0; i 0; i 0; i 0; i 0; i 0; i 0; i 0; i 0];
    [i 22; i 50; i 0; i 16; i (-10); q 21 20; i 100; i 1; i 50; i 10; i 0; i 0; i 0; i 0; i 0; i 0; i 0; i 0; i 0; i 0; i 0];
    [i 22; i 50; i 0; i 16; i (-10); q 21 20; i 100; i 1; i 50; i 10; i 0; i 0; i 0; i 0; i 0; i 0; i 0; i 0; i 0; i 0; i 0];
    [i 22; i 50; i 0; i 16; i (-10); q 21 20; i 100; i 1; i 50; i 10; i 0; i 0; i 0; i 0; i 0; i 0; i 0; i 0; i 0; i 0; i 0];
    [i 22; i 50; i 0; i 16; i (-10); q 21 20; i 100; i 1; i 50; i 10; i 0; i 0; i 0; i 0; i 0; i 0; i 0; i 0; i 0; i 0; i 0];
    [i 23; i 155; i 0; i 80; i (-50); q 21 20; i 100; i 1; i 155; q 543 10; i 0; i 0; i 0; i 0; i 0; i 0; i 0; i 0; i 0; i 0; i 0];
    [i 23; i 155; i 0; i 80; i (-50); q 21 20; i 100; i 1; i 155; q 543 10; i 0; i 0; i 0; i 0; i 0; i 0; i 0; i 0; i 0; i 0; i 0];
    [i 23; i 350; i 0; i 150; i (-25); q 21 20; i 100; i 1; i 350; i 140; i 0; i 0; i 0; i 0; i 0; i 0; i 0; i 0; i 0; i 0; i 0]]
   [[i 1; i 2; q 13 5000; q 139 10000; q 4611 10000; i 175; i 250; i 200; i 0; i 0; i 1; i (-360); i 360];
    [i 1; i 3; q 273 5000; q 132 625; q 143 2500; i 175; i 208; i 220; i 0; i 0; i 1; i (-360); i 360];
    [i 1; i 5; q 109 5000; q 169 2000; q 229 10000; i 175; i 208; i 220; i 0; i 0; i 1; i (-360); i 360];
    [i 2; i 4; q 41 1250; q 1267 10000; q 343 10000; i 175; i 208; i 220; i 0; i 0; i 1; i (-360); i 360];
    [i 2; i 6; q 497 10000; q 24 125; q 13 250; i 175; i 208; i 220; i 0; i 0; i 1; i (-360); i 360];
    [i 3; i 9; q 77 2500; q 119 1000; q 161 5000; i 175; i 208; i 220; i 0; i 0; i 1; i (-360); i 360];
    [i 3; i 24; q 23 10000; q 839 10000; i 0; i 400; i 510; i 600; q 103 100; i 0; i 1; i (-360); i 360];
    [i 4; i 9; q 67 2500; q 1037 10000; q 281 10000; i 175; i 208; i 220; i 0; i 0; i 1; i (-360); i 360];
    [i 5; i 10; q 57 2500; q 883 10000; q 239 10000; i 175; i 208; i 220; i 0; i 0; i 1; i (-360); i 360];
    [i 6; i 10; q 139 10000; q 121 2000; q 2459 1000; i 175; i 193; i 200; i 0; i 0; i 1; i (-360); i 360];
    [i 7; i 8; q 159 10000; q 307 5000; q 83 5000; i 175; i 208; i 220; i 0; i 0; i 1; i (-360); i 360];
    [i 8; i 9; q 427 10000; q 1651 10000; q 447 10000; i 175; i 208; i 220; i 0; i 0; i 1; i (-360); i 360];
    [i 8; i 10; q 427 10000; q 1651 10000; q 447 10000; i 175; i 208; i 220; i 0; i 0; i 1; i (-360); i 360];
    [i 9; i 11; q 23 10000; q 839 10000; i 0; i 400; i 510; i 600; q 103 100; i 0; i 1; i (-360); i 360];
    [i 9; i 12; q 23 10000; q 839 10000; i 0; i 400; i 510; i 600; q 103 100; i 0; i 1; i (-360); i 360];
    [i 10; i 11; q 23 10000; q 839 10000; i 0; i 400; i 510; i 600; q 51 50; i 0; i 1; i (-360); i 360];
    [i 10; i 12; q 23 10000; q 839 10000; i 0; i 400; i 510; i 600; q 51 50; i 0; i 1; i (-360); i 360];
    [i 11; i 13; q 61 10000; q 119 2500; q 999 10000; i 500; i 600; i 625; i 0; i 0; i 1; i (-360); i 360];
    [i 11; i 14; q 27 5000; q 209 5000; q 879 10000; i 500; i 625; i 625; i 0; i 0; i 1; i (-360); i 360];
    [i 12; i 13; q 61 10000; q 119 2500; q 999 10000; i 500; i 625; i 625; i 0; i 0; i 1; i (-360); i 360];
    [i 12; i 23; q 31 2500; q 483 5000; q 203 1000; i 500; i 625; i 625; i 0; i 0; i 1; i (-360); i 360];
    [i 13; i 23; q 111 10000; q 173 2000; q 909 5000; i 500; i 625; i 625; i 0; i 0; i 1; i (-360); i 360];
    [i 14; i 16; q 1 200; q 389 10000; q 409 5000; i 500; i 625; i 625; i 0; i 0; i 1; i (-360); i 360];
    [i 15; i 16; q 11 5000; q 173 10000; q 91 2500; i 500; i 600; i 625; i 0; i 0; i 1; i (-360); i 360];
    [i 15; i 21; q 63 10000; q 49 1000; q 103 1000; i 500; i 600; i 625; i 0; i 0; i 1; i (-360); i 360];
    [i 15; i 21; q 63 10000; q 49 1000; q 103 1000; i 500; i 600; i 625; i 0; i 0; i 1; i (-360); i 360];
    [i 15; i 24; q 67 10000; q 519 10000; q 1091 10000; i 500; i 600; i 625; i 0; i 0; i 1; i (-360); i 360];
    [i 16; i 17; q 33 10000; q 259 10000; q 109 2000; i 500; i 600; i 625; i 0; i 0; i 1; i (-360); i 360];
    [i 16; i 19; q 3 1000; q 231 10000; q 97 2000; i 500; i 600; i 625; i 0; i 0; i 1; i (-360); i 360];
    [i 17; i 18; q 9 5000; q 9 625; q 303 10000; i 500; i 600; i 625; i 0; i 0; i 1; i (-360); i 360];
    [i 17; i 22; q 27 2000; q 1053 10000; q 553 2500; i 500; i 600; i 625; i 0; i 0; i 1; i (-360); i 360];
    [i 18; i 21; q 33 10000; q 259 10000; q 109 2000; i 500; i 600; i 625; i 0; i 0; i 1; i (-360); i 360];
    [i 18; i 21; q 33 10000; q 259 10000; q 109 2000; i 500; i 600; i 625; i 0; i 0; i 1; i (-360); i 360];
    [i 19; i 20; q 51 10000; q 99 2500; q 833 10000; i 500; i 600; i 625; i 0; i 0; i 1; i (-360); i 360];
    [i 19; i 20; q 51 10000; q 99 2500; q 833 10000; i 500; i 600; i 625; i 0; i 0; i 1; i (-360); i 360];
    [i 20; i 23; q 7 2500; q 27 1250; q 91 2000; i 500; i 600; i 625; i 0; i 0; i 1; i (-360); i 360];
    [i 20; i 23; q 7 2500; q 27 1250; q 91 2000; i 500; i 600; i 625; i 0; i 0; i 1; i (-360); i 360];
    [i 21; i 22; q 87 10000; q 339 5000; q 89 625; i 500; i 600; i 625; i 0; i 0; i 1; i (-360); i 360]]
   (Some
   [[i 1; i 1];
    [i 2; i 3];
    [i 3; i 8];
    [i 4; i 6]])
   (Some
   [[i 2; i 1500; i 0; i 3; i 0; i 130; q 4006849 10000];
    [i 2; i 1500; i 0; i 3; i 0; i 130; q 4006849 10000];
    [i 2; i 1500; i 0; i 3; q 7071 500000; q 160811 10000; q 530769 2500];
    [i 2; i 1500; i 0; i 3; q 7071 500000; q 160811 10000; q 530769 2500];
    [i 2; i 1500; i 0; i 3; i 0; i 130; q 4006849 10000];
    [i 2; i 1500; i 0; i 3; i 0; i 130; q 4006849 10000];
    [i 2; i 1500; i 0; i 3; q 7071 500000; q 160811 10000; q 530769 2500];
    [i 2; i 1500; i 0; i 3; q 7071 500000; q 160811 10000; q 530769 2500];
    [i 2; i 1500; i 0; i 3; q 823 15625; q 87323 2000; q 781521 1000];
    [i 2; i 1500; i 0; i 3; q 823 15625; q 87323 2000; q 781521 1000];
    [i 2; i 1500; i 0; i 3; q 823 15625; q 87323 2000; q 781521 1000];
    [i 2; i 1500; i 0; i 3; q 717 100000; q 121451 2500; q 333103 400];
    [i 2; i 1500; i 0; i 3; q 717 100000; q 121451 2500; q 333103 400];
    [i 2; i 1500; i 0; i 3; q 717 100000; q 121451 2500; q 333103 400];
    [i 2; i 1500; i 0; i 3; i 0; i 0; i 0];
    [i 2; i 1500; i 0; i 3; q 82103 250000; q 14141 250; q 215963 2500];
    [i 2; i 1500; i 0; i 3; q 82103 250000; q 14141 250; q 215963 2500];
    [i 2; i 1500; i 0; i 3; q 82103 250000; q 14141 250; q 215963 2500];
    [i 2; i 1500; i 0; i 3; q 82103 250000; q 14141 250; q 215963 2500];
    [i 2; i 1500; i 0; i 3; q 82103 250000; q 14141 250; q 215963 2500];
    [i 2; i 1500; i 0; i 3; q 4171 500000; q 123883 10000; q 3822391 10000];
    [i 2; i 1500; i 0; i 3; q 4171 500000; q 123883 10000; q 3822391 10000];
    [i 2; i 1500; i 0; i 3; q 213 1000000; q 44231 10000; q 3953749 10000];
    [i 2; i 1500; i 0; i 3; q 213 1000000; q 44231 10000; q 3953749 10000];
    [i 2; i 1500; i 0; i 3; i 0; q 1 1000; q 1 1000];
    [i 2; i 1500; i 0; i 3; i 0; q 1 1000; q 1 1000];
    [i 2; i 1500; i 0; i 3; i 0; q 1 1000; q 1 1000];
    [i 2; i 1500; i 0; i 3; i 0; q 1 1000; q 1 1000];
    [i 2; i 1500; i 0; i 3; i 0; q 1 1000; q 1 1000];
    [i 2; i 1500; i 0; i 3; i 0; q 1 1000; q 1 1000];
    [i 2; i 1500; i 0; i 3; q 4171 500000; q 123883 10000; q 3822391 10000];
    [i 2; i 1500; i 0; i 3; q 4171 500000; q 123883 10000; q 3822391 10000];
    [i 2; i 1500; i 0; i 3; q 979 200000; q 23699 2000; q 3325547 5000]]).

(** pypower/case30.py *)
Definition case30 : bundle := Bundle "case30" 100
   [[i 1; i 3; i 0; i 0; i 0; i 0; i 1; i 1; i 0; i 135; i 1; q 21 20; q 19 20];
    [i 2; i 2; q 217 10; q 127 10; i 0; i 0; i 1; i 1; i 0; i 135; i 1; q 11 10; q 19 20];
    [i 3; i 1; q 12 5; q 6 5; i 0; i 0; i 1; i 1; i 0; i 135; i 1; q 21 20; q 19 20];
    [i 4; i 1; q 38 5; q 8 5; i 0; i 0; i 1; i 1; i 0; i 135; i 1; q 21 20; q 19 20];
    [i 5; i 1; i 0; i 0; i 0; q 19 100; i 1; i 1; i 0; i 135; i 1; q 21 20; q 19 20];
    [i 6; i 1; i 0; i 0; i 0; i 0; i 1; i 1; i 0; i 135; i 1; q 21 20; q 19 20];
    [i 7; i 1; q 114 5; q 109 10; i 0; i 0; i 1; i 1; i 0; i 135; i 1; q 21 20; q 19 20];
    [i 8; i 1; i 30; i 30; i 0; i 0; i 1; i 1; i 0; i 135; i 1; q 21 20; q 19 20];
    [i 9; i 1; i 0; i 0; i 0; i 0; i 1; i 1; i 0; i 135; i 1; q 21 20; q 19 20];
    [i 10; i 1; q 29 5; i 2; i 0; i 0; i 3; i 1; i 0; i 135; i 1; q 21 20; q 19 20];
    [i 11; i 1; i 0; i 0; i 0; i 0; i 1; i 1; i 0; i 135; i 1; q 21 20; q 19 20];
    [i 12; i 1; q 56 5; q 15 2; i 0; i 0; i 2; i 1; i 0; i 135; i 1; q 21 20; q 19 20];
    [i 13; i 2; i 0; i 0; i 0; i 0; i 2; i 1; i 0; i 135; i 1; q 11 10; q 19 20];
    [i 14; i 1; q 31 5; q 8 5; i 0; i 0; i 2; i 1; i 0; i 135; i 1; q 21 20; q 19 20];
    [i 15; i 1; q 41 5; q 5 2; i 0; i 0; i 2; i 1; i 0; i 135; i 1; q 21 20; q 19 20];
    [i 16; i 1; q 7 2; q 9 5; i 0; i 0; i 2; i 1; i 0; i 135; i 1; q 21 20; q 19 20];
    [i 17; i 1; i 9; q 29 5; i 0; i 0; i 2; i 1; i 0; i 135; i 1; q 21 20; q 19 20];
    [i 18; i 1; q 16 5; q 9 10; i 0; i 0; i 2; i 1; i 0; i 135; i 1; q 21 20; q 19 20];
    [i 19; i 1; q 19 2; q 17 5; i 0; i 0; i 2; i 1; i 0; i 135; i 1; q 21 20; q 19 20];
    [i 20; i 1; q 11 5; q 7 10; i 0; i 0; i 2; i 1; i 0; i 135; i 1; q 21 20; q 19 20];
    [i 21; i 1; q 35 2; q 56 5; i 0; i 0; i 3; i 1; i 0; i 135; i 1; q 21 20; q 19 20];
    [i 22; i 2; i 0; i 0; i 0; i 0; i 3; i 1; i 0; i 135; i 1; q 11 10; q 19 20];
    [i 23; i 2; q 16 5; q 8 5; i 0; i 0; i 2; i 1; i 0; i 135; i 1; q 11 10; q 19 20];
    [i 24; i 1; q 87 10; q 67 10; i 0; q 1 25; i 3; i 1; i 0; i 135; i 1; q 21 20; q 19 20];
    [i 25; i 1; i 0; i 0; i 0; i 0; i 3; i 1; i 0; i 135; i 1; q 21 20; q 19 20];
    [i 26; i 1; q 7 2; q 23 10; i 0; i 0; i 3; i 1; i 0; i 135; i 1; q 21 20; q 19 20];
    [i 27; i 2; i 0; i 0; i 0; i 0; i 3; i 1; i 0; i 135; i 1; q 11 10; q 19 20];
    [i 28; i 1; i 0; i 0; i 0; i 0; i 1; i 1; i 0; i 135; i 1; q 21 20; q 19 20];
    [i 29; i 1; q 12 5; q 9 10; i 0; i 0; i 3; i 1; i 0; i 135; i 1; q 21 20; q 19 20];
    [i 30; i 1; q 53 5; q 19 10; i 0; i 0; i 3; i 1; i 0; i 135; i 1; q 21 20; q 19 20]]
   [[i 1; q 1177 50; i 0; i 150; i (-20); i 1; i 100; i 1; i 80; i 0; i 0; i 0; i 0; i 0; i 0; i 0; i 0; i 0; i 0; i 0; i 0];
    [i 2; q 6097 100; i 0; i 60; i (-20); i 1; i 100; i 1; i 80; i 0; i 0; i 0; i 0; i 0; i 0; i 0; i 0; i 0; i 0; i 0; i 0];
    [i 22; q 2159 100; i 0; q 125 2; i (-15); i 1; i 100; i 1; i 50; i 0; i 0; i 0; i 0; i 0; i 0; i 0; i 0; i 0; i 0; i 0; i 0];
    [i 27; q 2691 100; i 0; q 487 10; i (-15); i 1; i 100; i 1; i 55; i 0; i 0; i 0; i 0; i 0; i 0; i 0; i 0; i 0; i 0; i 0; i 0];
    [i 23; q 96 5; i 0; i 40; i (-10); i 1; i 100; i 1; i 30; i 0; i 0; i 0; i 0; i 0; i 0; i 0; i 0; i 0; i 0; i 0; i 0];
    [i 13; i 37; i 0; q 447 10; i (-15); i 1; i 100; i 1; i 40; i 0; i 0; i 0; i 0; i 0; i 0; i 0; i 0; i 0; i 0; i 0; i 0]]
   [[i 1; i 2; q 1 50; q 3 50; q 3 100; i 130; i 130; i 130; i 0; i 0; i 1; i (-360); i 360];
    [i 1; i 3; q 1 20; q 19 100; q 1 50; i 130; i 130; i 130; i 0; i 0; i 1; i (-360); i 360];
    [i 2; i 4; q 3 50; q 17 100; q 1 50; i 65; i 65; i 65; i 0; i 0; i 1; i (-360); i 360];
    [i 3; i 4; q 1 100; q 1 25; i 0; i 130; i 130; i 130; i 0; i 0; i 1; i (-360); i 360];
    [i 2; i 5; q 1 20; q 1 5; q 1 50; i 130; i 130; i 130; i 0; i 0; i 1; i (-360); i 360];
    [i 2; i 6; q 3 50; q 9 50; q 1 50; i 65; i 65; i 65; i 0; i 0; i 1; i (-360); i 360];
    [i 4; i 6; q 1 100; q 1 25; i 0; i 90; i 90; i 90; i 0; i 0; i 1; i (-360); i 360];
    [i 5; i 7; q 1 20; q 3 25; q 1 100; i 70; i 70; i 70; i 0; i 0; i 1; i (-360); i 360];
    [i 6; i 7; q 3 100; q 2 25; q 1 100; i 130; i 130; i 130; i 0; i 0; i 1; i (-360); i 360];
    [i 6; i 8; q 1 100; q 1 25; i 0; i 32; i 32; i 32; i 0; i 0; i 1; i (-360); i 360];
    [i 6; i 9; i 0; q 21 100; i 0; i 65; i 65; i 65; i 0; i 0; i 1; i (-360); i 360];
    [i 6; i 10; i 0; q 14 25; i 0; i 32; i 32; i 32; i 0; i 0; i 1; i (-360); i 360];
    [i 9; i 11; i 0; q 21 100; i 0; i 65; i 65; i 65; i 0; i 0; i 1; i (-360); i 360];
    [i 9; i 10; i 0; q 11 100; i 0; i 65; i 65; i 65; i 0; i 0; i 1; i (-360); i 360];
    [i 4; i 12; i 0; q 13 50; i 0; i 65; i 65; i 65; i 0; i 0; i 1; i (-360); i 360];
    [i 12; i 13; i 0; q 7 50; i 0; i 65; i 65; i 65; i 0; i 0; i 1; i (-360); i 360];
    [i 12; i 14; q 3 25; q 13 50; i 0; i 32; i 32; i 32; i 0; i 0; i 1; i (-360); i 360];
    [i 12; i 15; q 7 100; q 13 100; i 0; i 32; i 32; i 32; i 0; i 0; i 1; i (-360); i 360];
    [i 12; i 16; q 9 100; q 1 5; i 0; i 32; i 32; i 32; i 0; i 0; i 1; i (-360); i 360];
    [i 14; i 15; q 11 50; q 1 5; i 0; i 16; i 16; i 16; i 0; i 0; i 1; i (-360); i 360];
    [i 16; i 17; q 2 25; q 19 100; i 0; i 16; i 16; i 16; i 0; i 0; i 1; i (-360); i 360];
    [i 15; i 18; q 11 100; q 11 50; i 0; i 16; i 16; i 16; i 0; i 0; i 1; i (-360); i 360];
    [i 18; i 19; q 3 50; q 13 100; i 0; i 16; i 16; i 16; i 0; i 0; i 1; i (-360); i 360];
    [i 19; i 20; q 3 100; q 7 100; i 0; i 32; i 32; i 32; i 0; i 0; i 1; i (-360); i 360];
    [i 10; i 20; q 9 100; q 21 100; i 0; i 32; i 32; i 32; i 0; i 0; i 1; i (-360); i 360];
    [i 10; i 17; q 3 100; q 2 25; i 0; i 32; i 32; i 32; i 0; i 0; i 1; i (-360); i 360];
    [i 10; i 21; q 3 100; q 7 100; i 0; i 32; i 32; i 32; i 0; i 0; i 1; i (-360); i 360];
    [i 10; i 22; q 7 100; q 3 20; i 0; i 32; i 32; i 32; i 0; i 0; i 1; i (-360); i 360];
    [i 21; i 22; q 1 100; q 1 50; i 0; i 32; i 32; i 32; i 0; i 0; i 1; i (-360); i 360];
    [i 15; i 23; q 1 10; q 1 5; i 0; i 16; i 16; i 16; i 0; i 0; i 1; i (-360); i 360];
    [i 22; i 24; q 3 25; q 9 50; i 0; i 16; i 16; i 16; i 0; i 0; i 1; i (-360); i 360];
    [i 23; i 24; q 13 100; q 27 100; i 0; i 16; i 16; i 16; i 0; i 0; i 1; i (-360); i 360];
    [i 24; i 25; q 19 100; q 33 100; i 0; i 16; i 16; i 16; i 0; i 0; i 1; i (-360); i 360];
    [i 25; i 26; q 1 4; q 19 50; i 0; i 16; i 16; i 16; i 0; i 0; i 1; i (-360); i 360];
    [i 25; i 27; q 11 100; q 21 100; i 0; i 16; i 16; i 16; i 0; i 0; i 1; i (-360); i 360];
    [i 28; i 27; i 0; q 2 5; i 0; i 65; i 65; i 65; i 0; i 0; i 1; i (-360); i 360];
    [i 27; i 29; q 11 50; q 21 50; i 0; i 16; i 16; i 16; i 0; i 0; i 1; i (-360); i 360];
    [i 27; i 30; q 8 25; q 3 5; i 0; i 16; i 16; i 16; i 0; i 0; i 1; i (-360); i 360];
    [i 29; i 30; q 6 25; q 9 20; i 0; i 16; i 16; i 16; i 0; i 0; i 1; i (-360); i 360];
    [i 8; i 28; q 3 50; q 1 5; q 1 50; i 32; i 32; i 32; i 0; i 0; i 1; i (-360); i 360];
    [i 6; i 28; q 1 50; q 3 50; q 1 100; i 32; i 32; i 32; i 0; i 0; i 1; i (-360); i 360]]
   (Some
   [[i 1; i 8];
    [i 2; i 23];
    [i 3; i 26]])
   (Some
   [[i 2; i 0; i 0; i 3; q 1 50; i 2; i 0];
    [i 2; i 0; i 0; i 3; q 7 400; q 7 4; i 0];
    [i 2; i 0; i 0; i 3; q 1 16; i 1; i 0];
    [i 2; i 0; i 0; i 3; q 417 50000; q 13 4; i 0];
    [i 2; i 0; i 0; i 3; q 1 40; i 3; i 0];
    [i 2; i 0; i 0; i 3; q 1 40; i 3; i 0]]).

(** pypower/case30Q.py *)
Definition case30Q : bundle := Bundle "case30Q" 100
   [[i 1; i 3; i 0; i 0; i 0; i 0; i 1; i 1; i 0; i 135; i 1; q 21 20; q 19 20];
    [i 2; i 2; q 217 10; q 127 10; i 0; i 0; i 1; i 1; i 0; i 135; i 1; q 11 10; q 19 20];
    [i 3; i 1; q 12 5; q 6 5; i 0; i 0; i 1; i 1; i 0; i 135; i 1; q 21 20; q 19 20];
    [i 4; i 1; q 38 5; q 8 5; i 0; i 0; i 1; i 1; i 0; i 135; i 1; q 21 20; q 19 20];
    [i 5; i 1; i 0; i 0; i 0; q 19 100; i 1; i 1; i 0; i 135; i 1; q 21 20; q 19 20];
    [i 6; i 1; i 0; i 0; i 0; i 0; i 1; i 1; i 0; i 135; i 1; q 21 20; q 19 20];
    [i 7; i 1; q 114 5; q 109 10; i 0; i 0; i 1; i 1; i 0; i 135; i 1; q 21 20; q 19 20];
    [i 8; i 1; i 30; i 30; i 0; i 0; i 1; i 1; i 0; i 135; i 1; q 21 20; q 19 20];
    [i 9; i 1; i 0; i 0; i 0; i 0; i 1; i 1; i 0; i 135; i 1; q 21 20; q 19 20];
    [i 10; i 1; q 29 5; i 2; i 0; i 0; i 3; i 1; i 0; i 135; i 1; q 21 20; q 19 20];
    [i 11; i 1; i 0; i 0; i 0; i 0; i 1; i 1; i 0; i 135; i 1; q 21 20; q 19 20];
    [i 12; i 1; q 56 5; q 15 2; i 0; i 0; i 2; i 1; i 0; i 135; i 1; q 21 20; q 19 20];
    [i 13; i 2; i 0; i 0; i 0; i 0; i 2; i 1; i 0; i 135; i 1; q 11 10; q 19 20];
    [i 14; i 1; q 31 5; q 8 5; i 0; i 0; i 2; i 1; i 0; i 135; i 1; q 21 20; q 19 20];
    [i 15; i 1; q 41 5; q 5 2; i 0; i 0; i 2; i 1; i 0; i 135; i 1; q 21 20; q 19 20];
    [i 16; i 1; q 7 2; q 9 5; i 0; i 0; i 2; i 1; i 0; i 135; i 1; q 21 20; q 19 20];
    [i 17; i 1; i 9; q 29 5; i 0; i 0; i 2; i 1; i 0; i 135; i 1; q 21 20; q 19 20];
    [i 18; i 1; q 16 5; q 9 10; i 0; i 0; i 2; i 1; i 0; i 135; i 1; q 21 20; q 19 20];
    [i 19; i 1; q 19 2; q 17 5; i 0; i 0; i 2; i 1; i 0; i 135; i 1; q 21 20; q 19 20];
    [i 20; i 1; q 11 5; q 7 10; i 0; i 0; i 2; i 1; i 0; i 135; i 1; q 21 20; q 19 20];
    [i 21; i 1; q 35 2; q 56 5; i 0; i 0; i 3; i 1; i 0; i 135; i 1; q 21 20; q 19 20];
    [i 22; i 2; i 0; i 0; i 0; i 0; i 3; i 1; i 0; i 135; i 1; q 11 10; q 19 20];
    [i 23; i 2; q 16 5; q 8 5; i 0; i 0; i 2; i 1; i 0; i 135; i 1; q 11 10; q 19 20];
    [i 24; i 1; q 87 10; q 67 10; i 0; q 1 25; i 3; i 1; i 0; i 135; i 1; q 21 20; q 19 20];
    [i 25; i 1; i 0; i 0; i 0; i 0; i 3; i 1; i 0; i 135; i 1; q 21 20; q 19 20];
    [i 26; i 1; q 7 2; q 23 10; i 0; i 0; i 3; i 1; i 0; i 135; i 1; q 21 20; q 19 20];
    [i 27; i 2; i 0; i 0; i 0; i 0; i 3; i 1; i 0; i 135; i 1; q 11 10; q 19 20];
    [i 28; i 1; i 0; i 0; i 0; i 0; i 1; i 1; i 0; i 135; i 1; q 21 20; q 19 20];
    [i 29; i 1; q 12 5; q 9 10; i 0; i 0; i 3; i 1; i 0; i 135; i 1; q 21 20; q 19 20];
    [i 30; i 1; q 53 5; q 19 10; i 0; i 0; i 3; i 1; i 0; i 135; i 1; q 21 20; q 19 20]]
   [[i 1; q 1177 50; i 0; i 150; i (-20); i 1; i 100; i 1; i 80; i 0; i 0; i 0; i 0; i 0; i 0; i 0; i 0; i 0; i 0; i 0; i 0];
    [i 2; q 6097 100; i 0; i 60; i (-20); i 1; i 100; i 1; i 80; i 0; i 0; i 0; i 0; i 0; i 0; i 0; i 0; i 0; i 0; i 0; i 0];
    [i 22; q 2159 100; i 0; q 125 2; i (-15); i 1; i 100; i 1; i 50; i 0; i 0; i 0; i 0; i 0; i 0; i 0; i 0; i 0; i 0; i 0; i 0];
    [i 27; q 2691 100; i 0; q 487 10; i (-15); i 1; i 100; i 1; i 55; i 0; i 0; i 0; i 0; i 0; i 0; i 0; i 0; i 0; i 0; i 0; i 0];
    [i 23; q 96 5; i 0; i 40; i (-10); i 1; i 100; i 1; i 30; i 0; i 0; i 0; i 0; i 0; i 0; i 0; i 0; i 0; i 0; i 0; i 0];
    [i 13; i 37; i 0; q 447 10; i (-15); i 1; i 100; i 1; i 40; i 0; i 0; i 0; i 0; i 0; i 0; i 0; i 0; i 0; i 0; i 0; i 0]]
   [[i 1; i 2; q 1 50; q 3 50; q 3 100; i 130; i 130; i 130; i 0; i 0; i 1; i (-360); i 360];
    [i 1; i 3; q 1 20; q 19 100; q 1 50; i 130; i 130; i 130; i 0; i 0; i 1; i (-360); i 360];
    [i 2; i 4; q 3 50; q 17 100; q 1 50; i 65; i 65; i 65; i 0; i 0; i 1; i (-360); i 360];
    [i 3; i 4; q 1 100; q 1 25; i 0; i 130; i 130; i 130; i 0; i 0; i 1; i (-360); i 360];
    [i 2; i 5; q 1 20; q 1 5; q 1 50; i 130; i 130; i 130; i 0; i 0; i 1; i (-360); i 360];
    [i 2; i 6; q 3 50; q 9 50; q 1 50; i 65; i 65; i 65; i 0; i 0; i 1; i (-360); i 360];
    [i 4; i 6; q 1 100; q 1 25; i 0; i 90; i 90; i 90; i 0; i 0; i 1; i (-360); i 360];
    [i 5; i 7; q 1 20; q 3 25; q 1 100; i 70; i 70; i 70; i 0; i 0; i 1; i (-360); i 360];
    [i 6; i 7; q 3 100; q 2 25; q 1 100; i 130; i 130; i 130; i 0; i 0; i 1; i (-360); i 360];
    [i 6; i 8; q 1 100; q 1 25; i 0; i 32; i 32; i 32; i 0; i 0; i 1; i (-360); i 360];
    [i 6; i 9; i 0; q 21 100; i 0; i 65; i 65; i 65; i 0; i 0; i 1; i (-360); i 360];
    [i 6; i 10; i 0; q 14 25; i 0; i 32; i 32; i 32; i 0; i 0; i 1; i (-360); i 360];
    [i 9; i 11; i 0; q 21 100; i 0; i 65; i 65; i 65; i 0; i 0; i 1; i (-360); i 360];
    [i 9; i 10; i 0; q 11 100; i 0; i 65; i 65; i 65; i 0; i 0; i 1; i (-360); i 360];
    [i 4; i 12; i 0; q 13 50; i 0; i 65; i 65; i 65; i 0; i 0; i 1; i (-360); i 360];
    [i 12; i 13; i 0; q 7 50; i 0; i 65; i 65; i 65; i 0; i 0; i 1; i (-360); i 360];
    [i 12; i 14; q 3 25; q 13 50; i 0; i 32; i 32; i 32; i 0; i 0; i 1; i (-360); i 360];
    [i 12; i 15; q 7 100; q 13 100; i 0; i 32; i 32; i 32; i 0; i 0; i 1; i (-360); i 360];
    [i 12; i 16; q 9 100; q 1 5; i 0; i 32; i 32; i 32; i 0; i 0; i 1; i (-360); i 360];
    [i 14; i 15; q 11 50; q 1 5; i 0; i 16; i 16; i 16; i 0; i 0; i 1; i (-360); i 360];
    [i 16; i 17; q 2 25; q 19 100; i 0; i 16; i 16; i 16; i 0; i 0; i 1; i (-360); i 360];
    [i 15; i 18; q 11 100; q 11 50; i 0; i 16; i 16; i 16; i 0; i 0; i 1; i (-360); i 360];
    [i 18; i 19; q 3 50; q 13 100; i 0; i 16; i 16; i 16; i 0; i 0; i 1; i (-360); i 360];
    [i 19; i 20; q 3 100; q 7 100; i 0; i 32; i 32; i 32; i 0; i 0; i 1; i (-360); i 360];
    [i 10; i 20; q 9 100; q 21 100; i 0; i 32; i 32; i 32; i 0; i 0; i 1; i (-360); i 360];
    [i 10; i 17; q 3 100; q 2 25; i 0; i 32; i 32; i 32; i 0; i 0; i 1; i (-360); i 360];
    [i 10; i 21; q 3 100; q 7 100; i 0; i 32; i 32; i 32; i 0; i 0; i 1; i (-360); i 360];
    [i 10; i 22; q 7 100; q 3 20; i 0; i 32; i 32; i 32; i 0; i 0; i 1; i (-360); i 360];
    [i 21; i 22; q 1 100; q 1 50; i 0; i 32; i 32; i 32; i 0; i 0; i 1; i (-360); i 360];
    [i 15; i 23; q 1 10; q 1 5; i 0; i 16; i 16; i 16; i 0; i 0; i 1; i (-360); i 360];
    [i 22; i 24; q 3 25; q 9 50; i 0; i 16; i 16; i 16; i 0; i 0; i 1; i (-360); i 360];
    [i 23; i 24; q 13 100; q 27 100; i 0; i 16; i 16; i 16; i 0; i 0; i 1; i (-360); i 360];
    [i 24; i 25; q 19 100; q 33 100; i 0; i 16; i 16; i 16; i 0; i 0; i 1; i (-360); i 360];
    [i 25; i 26; q 1 4; q 19 50; i 0; i 16; i 16; i 16; i 0; i 0; i 1; i (-360); i 360];
    [i 25; i 27; q 11 100; q 21 100; i 0; i 16; i 16; i 16; i 0; i 0; i 1; i (-360); i 360];
    [i 28; i 27; i 0; q 2 5; i 0; i 65; i 65; i 65; i 0; i 0; i 1; i (-360); i 360];
    [i 27; i 29; q 11 50; q 21 50; i 0; i 16; i 16; i 16; i 0; i 0; i 1; i (-360); i 360];
    [i 27; i 30; q 8 25; q 3 5; i 0; i 16; i 16; i 16; i 0; i 0; i 1; i (-360); i 360];
    [i 29; i 30; q 6 25; q 9 20; i 0; i 16; i 16; i 16; i 0; i 0; i 1; i (-360); i 360];
    [i 8; i 28; q 3 50; q 1 5; q 1 50; i 32; i 32; i 32; i 0; i 0; i 1; i (-360); i 360];
    [i 6; i 28; q 1 50; q 3 50; q 1 100; i 32; i 32; i 32; i 0; i 0; i 1; i (-360); i 360]]
   (Some
   [[i 1; i 8];
    [i 2; i 23];
    [i 3; i 26]])
   (Some
   [[i 2; i 0; i 0; i 3; q 1 50; i 2; i 0];
    [i 2; i 0; i 0; i 3; q 7 400; q 7 4; i 0];
    [i 2; i 0; i 0; i 3; q 1 16; i 1; i 0];
    [i 2; i 0; i 0; i 3; q 417 50000; q 13 4; i 0];
    [i 2; i 0; i 0; i 3; q 1 40; i 3; i 0];
    [i 2; i 0; i 0; i 3; q 1 40; i 3; i 0];
    [i 2; i 0; i 0; i 3; q 1 50; i 0; i 0];
    [i 2; i 0; i 0; i 3; q 7 400; i 0; i 0];
    [i 2; i 0; i 0; i 3; q 1 16; i 0; i 0];
    [i 2; i 0; i 0; i 3; q 417 50000; i 0; i 0];
    [i 2; i 0; i 0; i 3; q 1 40; i 0; i 0];
    [i 2; i 0; i 0; i 3; q 1 40; i 0; i 0]]).

(** pypower/case30pwl.py *)
Definition case30pwl : bundle := Bundle "case30pwl" 100
   [[i 1; i 3; i 0; i 0; i 0; i 0; i 1; i 1; i 0; i 135; i 1; q 21 20; q 19 20];
    [i 2; i 2; q 217 10; q 127 10; i 0; i 0; i 1; i 1; i 0; i 135; i 1; q 11 10; q 19 20];
    [i 3; i 1; q 12 5; q 6 5; i 0; i 0; i 1; i 1; i 0; i 135; i 1; q 21 20; q 19 20];
    [i 4; i 1; q 38 5; q 8 5; i 0; i 0; i 1; i 1; i 0; i 135; i 1; q 21 20; q 19 20];
    [i 5; i 1; i 0; i 0; i 0; q 19 100; i 1; i 1; i 0; i 135; i 1; q 21 20; q 19 20];
    [i 6; i 1; i 0; i 0; i 0; i 0; i 1; i 1; i 0; i 135; i 1; q 21 20; q 19 20];
    [i 7; i 1; q 114 5; q 109 10; i 0; i 0; i 1; i 1; i 0; i 135; i 1; q 21 20; q 19 20];
    [i 8; i 1; i 30; i 30; i 0; i 0; i 1; i 1; i 0; i 135; i 1; q 21 20; q 19 20];
    [i 9; i 1; i 0; i 0; i 0; i 0; i 1; i 1; i 0; i 135; i 1; q 21 20; q 19 20];
    [i 10; i 1; q 29 5; i 2; i 0; i 0; i 3; i 1; i 0; i 135; i 1; q 21 20; q 19 20];
    [i 11; i 1; i 0; i 0; i 0; i 0; i 1; i 1; i 0; i 135; i 1; q 21 20; q 19 20];
    [i 12; i 1; q 56 5; q 15 2; i 0; i 0; i 2; i 1; i 0; i 135; i 1; q 21 20; q 19 20];
    [i 13; i 2; i 0; i 0; i 0; i 0; i 2; i 1; i 0; i 135; i 1; q 11 10; q 19 20];
    [i 14; i 1; q 31 5; q 8 5; i 0; i 0; i 2; i 1; i 0; i 135; i 1; q 21 20; q 19 20];
    [i 15; i 1; q 41 5; q 5 2; i 0; i 0; i 2; i 1; i 0; i 135; i 1; q 21 20; q 19 20];
    [i 16; i 1; q 7 2; q 9 5; i 0; i 0; i 2; i 1; i 0; i 135; i 1; q 21 20; q 19 20];
    [i 17; i 1; i 9; q 29 5; i 0; i 0; i 2; i 1; i 0; i 135; i 1; q 21 20; q 19 20];
    [i 18; i 1; q 16 5; q 9 10; i 0; i 0; i 2; i 1; i 0; i 135; i 1; q 21 20; q 19 20];
    [i 19; i 1; q 19 2; q 17 5; i 0; i 0; i 2; i 1; i 0; i 135; i 1; q 21 20; q 19 20];
    [i 20; i 1; q 11 5; q 7 10; i 0; i 0; i 2; i 1; i 0; i 135; i 1; q 21 20; q 19 20];
    [i 21; i 1; q 35 2; q 56 5; i 0; i 0; i 3; i 1; i 0; i 135; i 1; q 21 20; q 19 20];
    [i 22; i 2; i 0; i 0; i 0; i 0; i 3; i 1; i 0; i 135; i 1; q 11 10; q 19 20];
    [i 23; i 2; q 16 5; q 8 5; i 0; i 0; i 2; i 1; i 0; i 135; i 1; q 11 10; q 19 20];
    [i 24; i 1; q 87 10; q 67 10; i 0; q 1 25; i 3; i 1; i 0; i 135; i 1; q 21 20; q 19 20];
    [i 25; i 1; i 0; i 0; i 0; i 0; i 3; i 1; i 0; i 135; i 1; q 21 20; q 19 20];
    [i 26; i 1; q 7 2; q 23 10; i 0; i 0; i 3; i 1; i 0; i 135; i 1; q 21 20; q 19 20];
    [i 27; i 2; i 0; i 0; i 0; i 0; i 3; i 1; i 0; i 135; i 1; q 11 10; q 19 20];
    [i 28; i 1; i 0; i 0; i 0; i 0; i 1; i 1; i 0; i 135; i 1; q 21 20; q 19 20];
    [i 29; i 1; q 12 5; q 9 10; i 0; i 0; i 3; i 1; i 0; i 135; i 1; q 21 20; q 19 20];
    [i 30; i 1; q 53 5; q 19 10; i 0; i 0; i 3; i 1; i 0; i 135; i 1; q 21 20; q 19 20]]
   [[i 1; q 1177 50; i 0; i 150; i (-20); i 1; i 100; i 1; i 80; i 0; i 0; i 0; i 0; i 0; i 0; i 0; i 0; i 0; i 0; i 0; i 0];
    [i 2; q 6097 100; i 0; i 60; i (-20); i 1; i 100; i 1; i 80; i 0; i 0; i 0; i 0; i 0; i 0; i 0; i 0; i 0; i 0; i 0; i 0];
    [i 22; q 2159 100; i 0; q 125 2; i (-15); i 1; i 100; i 1; i 50; i 0; i 0; i 0; i 0; i 0; i 0; i 0; i 0; i 0; i 0; i 0; i 0];
    [i 27; q 2691 100; i 0; q 487 10; i (-15); i 1; i 100; i 1; i 55; i 0; i 0; i 0; i 0; i 0; i 0; i 0; i 0; i 0; i 0; i 0; i 0];
    [i 23; q 96 5; i 0; i 40; i (-10); i 1; i 100; i 1; i 30; i 0; i 0; i 0; i 0; i 0; i 0; i 0; i 0; i 0; i 0; i 0; i 0];
    [i 13; i 37; i 0; q 447 10; i (-15); i 1; i 100; i 1; i 40; i 0; i 0; i 0; i 0; i 0; i 0; i 0; i 0; i 0; i 0; i 0; i 0]]
   [[i 1; i 2; q 1 50; q 3 50; q 3 100; i 130; i 130; i 130; i 0; i 0; i 1; i (-360); i 360];
    [i 1; i 3; q 1 20; q 19 100; q 1 50; i 130; i 130; i 130; i 0; i 0; i 1; i (-360); i 360];
    [i 2; i 4; q 3 50; q 17 100; q 1 50; i 65; i 65; i 65; i 0; i 0; i 1; i (-360); i 360];
    [i 3; i 4; q 1 100; q 1 25; i 0; i 130; i 130; i 130; i 0; i 0; i 1; i (-360); i 360];
    [i 2; i 5; q 1 20; q 1 5; q 1 50; i 130; i 130; i 130; i 0; i 0; i 1; i (-360); i 360];
    [i 2; i 6; q 3 50; q 9 50; q 1 50; i 65; i 65; i 65; i 0; i 0; i 1; i (-360); i 360];
    [i 4; i 6; q 1 100; q 1 25; i 0; i 90; i 90; i 90; i 0; i 0; i 1; i (-360); i 360];
    [i 5; i 7; q 1 20; q 3 25; q 1 100; i 70; i 70; i 70; i 0; i 0; i 1; i (-360); i 360];
    [i 6; i 7; q 3 100; q 2 25; q 1 100; i 130; i 130; i 130; i 0; i 0; i 1; i (-360); i 360];
    [i 6; i 8; q 1 100; q 1 25; i 0; i 32; i 32; i 32; i 0; i 0; i 1; i (-360); i 360];
    [i 6; i 9; i 0; q 21 100; i 0; i 65; i 65; i 65; i 0; i 0; i 1; i (-360); i 360];
    [i 6; i 10; i 0; q 14 25; i 0; i 32; i 32; i 32; i 0; i 0; i 1; i (-360); i 360];
    [i 9; i 11; i 0; q 21 100; i 0; i 65; i 65; i 65; i 0; i 0; i 1; i (-360); i 360];
    [i 9; i 10; i 0; q 11 100; i 0; i 65; i 65; i 65; i 0; i 0; i 1; i (-360); i 360];
    [i 4; i 12; i 0; q 13 50; i 0; i 65; i 65; i 65; i 0; i 0; i 1; i (-360); i 360];
    [i 12; i 13; i 0; q 7 50; i 0; i 65; i 65; i 65; i 0; i 0; i 1; i (-360); i 360];
    [i 12; i 14; q 3 25; q 13 50; i 0; i 32; i 32; i 32; i 0; i 0; i 1; i (-360); i 360];
    [i 12; i 15; q 7 100; q 13 100; i 0; i 32; i 32; i 32; i 0; i 0; i 1; i (-360); i 360];
    [i 12; i 16; q 9 100; q 1 5; i 0; i 32; i 32; i 32; i 0; i 0; i 1; i (-360); i 360];
    [i 14; i 15; q 11 50; q 1 5; i 0; i 16; i 16; i 16; i 0; i 0; i 1; i (-360); i 360];
    [i 16; i 17; q 2 25; q 19 100; i 0; i 16; i 16; i 16; i 0; i 0; i 1; i (-360); i 360];
    [i 15; i 18; q 11 100; q 11 50; i 0; i 16; i 16; i 16; i 0; i 0; i 1; i (-360); i 360];
    [i 18; i 19; q 3 50; q 13 100; i 0; i 16; i 16; i 16; i 0; i 0; i 1; i (-360); i 360];
    [i 19; i 20; q 3 100; q 7 100; i 0; i 32; i 32; i 32; i 0; i 0; i 1; i (-360); i 360];
    [i 10; i 20; q 9 100; q 21 100; i 0; i 32; i 32; i 32; i 0; i 0; i 1; i (-360); i 360];
    [i 10; i 17; q 3 100; q 2 25; i 0; i 32; i 32; i 32; i 0; i 0; i 1; i (-360); i 360];
    [i 10; i 21; q 3 100; q 7 100; i 0; i 32; i 32; i 32; i 0; i 0; i 1; i (-360); i 360];
    [i 10; i 22; q 7 100; q 3 20; i 0; i 32; i 32; i 32; i 0; i 0; i 1; i (-360); i 360];
    [i 21; i 22; q 1 100; q 1 50; i 0; i 32; i 32; i 32; i 0; i 0; i 1; i (-360); i 360];
    [i 15; i 23; q 1 10; q 1 5; i 0; i 16; i 16; i 16; i 0; i 0; i 1; i (-360); i 360];
    [i 22; i 24; q 3 25; q 9 50; i 0; i 16; i 16; i 16; i 0; i 0; i 1; i (-360); i 360];
    [i 23; i 24; q 13 100; q 27 100; i 0; i 16; i 16; i 16; i 0; i 0; i 1; i (-360); i 360];
    [i 24; i 25; q 19 100; q 33 100; i 0; i 16; i 16; i 16; i 0; i 0; i 1; i (-360); i 360];
    [i 25; i 26; q 1 4; q 19 50; i 0; i 16; i 16; i 16; i 0; i 0; i 1; i (-360); i 360];
    [i 25; i 27; q 11 100; q 21 100; i 0; i 16; i 16; i 16; i 0; i 0; i 1; i (-360); i 360];
    [i 28; i 27; i 0; q 2 5; i 0; i 65; i 65; i 65; i 0; i 0; i 1; i (-360); i 360];
    [i 27; i 29; q 11 50; q 21 50; i 0; i 16; i 16; i 16; i 0; i 0; i 1; i (-360); i 360];
    [i 27; i 30; q 8 25; q 3 5; i 0; i 16; i 16; i 16; i 0; i 0; i 1; i (-360); i 360];
    [i 29; i 30; q 6 25; q 9 20; i 0; i 16; i 16; i 16; i 0; i 0; i 1; i (-360); i 360];
    [i 8; i 28; q 3 50; q 1 5; q 1 50; i 32; i 32; i 32; i 0; i 0; i 1; i (-360); i 360];
    [i 6; i 28; q 1 50; q 3 50; q 1 100; i 32; i 32; i 32; i 0; i 0; i 1; i (-360); i 360]]
   (Some
   [[i 1; i 8];
    [i 2; i 23];
    [i 3; i 26]])
   (Some
   [[i 1; i 0; i 0; i 4; i 0; i 0; i 12; i 144; i 36; i 1008; i 60; i 2832];
    [i 1; i 0; i 0; i 4; i 0; i 0; i 12; i 240; i 36; i 1296; i 60; i 3312];
    [i 1; i 0; i 0; i 4; i 0; i 0; i 12; i 240; i 36; i 1296; i 60; i 3312];
    [i 1; i 0; i 0; i 4; i 0; i 0; i 12; i 144; i 36; i 1008; i 60; i 2832];
    [i 1; i 0; i 0; i 4; i 0; i 0; i 12; i 240; i 36; i 1296; i 60; i 3312];
    [i 1; i 0; i 0; i 4; i 0; i 0; i 12; i 144; i 36; i 1008; i 60; i 2832]]).

(** pypower/case39.py *)
Definition case39 : bundle := Bundle "case39" 100
   [[i 1; i 1; q 488 5; q 221 5; i 0; i 0; i 2; q 2598459 2500000; q (-6768301) 500000; i 345; i 1; q 53 50; q 47 50];
    [i 2; i 1; i 0; i 0; i 0; i 0; i 2; q 10484941 10000000; q (-48926333) 5000000; i 345; i 1; q 53 50; q 47 50];
    [i 3; i 1; i 322; q 12 5; i 0; i 0; i 2; q 10307077 10000000; q (-383637) 31250; i 345; i 1; q 53 50; q 47 50];
    [i 4; i 1; i 500; i 184; i 0; i 0; i 1; q 50223 50000; q (-6313367) 500000; i 345; i 1; q 53 50; q 47 50];
    [i 5; i 1; i 0; i 0; i 0; i 0; i 1; q 10060063 10000000; q (-11192339) 1000000; i 345; i 1; q 53 50; q 47 50];
    [i 6; i 1; i 0; i 0; i 0; i 0; i 1; q 630141 625000; q (-1040833) 100000; i 345; i 1; q 53 50; q 47 50];
    [i 7; i 1; q 1169 5; i 84; i 0; i 0; i 1; q 6239983 6250000; q (-6377813) 500000; i 345; i 1; q 53 50; q 47 50];
    [i 8; i 1; i 522; q 883 5; i 0; i 0; i 1; q 3118351 3125000; q (-3333961) 250000; i 345; i 1; q 53 50; q 47 50];
    [i 9; i 1; q 13 2; q (-333) 5; i 0; i 0; i 1; q 259583 250000; q (-7089221) 500000; i 345; i 1; q 53 50; q 47 50];
    [i 10; i 1; i 0; i 0; i 0; i 0; i 1; q 10178431 10000000; q (-65367) 8000; i 345; i 1; q 53 50; q 47 50];
    [i 11; i 1; i 0; i 0; i 0; i 0; i 1; q 5066929 5000000; q (-89369663) 10000000; i 345; i 1; q 53 50; q 47 50];
    [i 12; i 1; q 853 100; i 88; i 0; i 0; i 1; q 200163 200000; q (-22497059) 2500000; i 345; i 1; q 53 50; q 47 50];
    [i 13; i 1; i 0; i 0; i 0; i 0; i 1; q 1014923 1000000; q (-11162409) 1250000; i 345; i 1; q 53 50; q 47 50];
    [i 14; i 1; i 0; i 0; i 0; i 0; i 1; q 1012319 1000000; q (-2143059) 200000; i 345; i 1; q 53 50; q 47 50];
    [i 15; i 1; i 320; i 153; i 0; i 0; i 3; q 5080927 5000000; q (-11345399) 1000000; i 345; i 1; q 53 50; q 47 50];
    [i 16; i 1; i 329; q 323 10; i 0; i 0; i 3; q 10325203 10000000; q (-2508337) 250000; i 345; i 1; q 53 50; q 47 50];
    [i 17; i 1; i 0; i 0; i 0; i 0; i 2; q 2068473 2000000; q (-2779109) 250000; i 345; i 1; q 53 50; q 47 50];
    [i 18; i 1; i 158; i 30; i 0; i 0; i 2; q 5157863 5000000; q (-1498271) 125000; i 345; i 1; q 53 50; q 47 50];
    [i 19; i 1; i 0; i 0; i 0; i 0; i 3; q 2625267 2500000; q (-54100729) 10000000; i 345; i 1; q 53 50; q 47 50];
    [i 20; i 1; i 680; i 103; i 0; i 0; i 3; q 49550527 50000000; q (-68211783) 10000000; i 345; i 1; q 53 50; q 47 50];
    [i 21; i 1; i 274; i 115; i 0; i 0; i 3; q 1290399 1250000; q (-76287461) 10000000; i 345; i 1; q 53 50; q 47 50];
    [i 22; i 1; i 0; i 0; i 0; i 0; i 3; q 10501427 10000000; q (-31831199) 10000000; i 345; i 1; q 53 50; q 47 50];
    [i 23; i 1; q 495 2; q 423 5; i 0; i 0; i 3; q 10451451 10000000; q (-33812763) 10000000; i 345; i 1; q 53 50; q 47 50];
    [i 24; i 1; q 1543 5; q (-461) 5; i 0; i 0; i 3; q 1038001 1000000; q (-19827517) 2000000; i 345; i 1; q 53 50; q 47 50];
    [i 25; i 1; i 224; q 236 5; i 0; i 0; i 2; q 10576827 10000000; q (-41846177) 5000000; i 345; i 1; q 53 50; q 47 50];
    [i 26; i 1; i 139; i 17; i 0; i 0; i 2; q 10525613 10000000; q (-5899231) 625000; i 345; i 1; q 53 50; q 47 50];
    [i 27; i 1; i 281; q 151 2; i 0; i 0; i 2; q 10383449 10000000; q (-1420269) 125000; i 345; i 1; q 53 50; q 47 50];
    [i 28; i 1; i 206; q 138 5; i 0; i 0; i 3; q 10503737 10000000; q (-7410449) 1250000; i 345; i 1; q 53 50; q 47 50];
    [i 29; i 1; q 567 2; q 269 10; i 0; i 0; i 3; q 10501149 10000000; q (-31698741) 10000000; i 345; i 1; q 53 50; q 47 50];
    [i 30; i 2; i 0; i 0; i 0; i 0; i 2; q 10499 10000; q (-36852373) 5000000; i 345; i 1; q 53 50; q 47 50];
    [i 31; i 3; q 46 5; q 23 5; i 0; i 0; i 1; q 491 500; i 0; i 345; i 1; q 53 50; q 47 50];
    [i 32; i 2; i 0; i 0; i 0; i 0; i 1; q 9841 10000; q (-942187) 5000000; i 345; i 1; q 53 50; q 47 50];
    [i 33; i 2; i 0; i 0; i 0; i 0; i 3; q 2493 2500; q (-3863489) 20000000; i 345; i 1; q 53 50; q 47 50];
    [i 34; i 2; i 0; i 0; i 0; i 0; i 3; q 10123 10000; q (-1631119) 1000000; i 345; i 1; q 53 50; q 47 50];
    [i 35; i 2; i 0; i 0; i 0; i 0; i 3; q 5247 5000; q 17765069 10000000; i 345; i 1; q 53 50; q 47 50];
    [i 36; i 2; i 0; i 0; i 0; i 0; i 3; q 2659 2500; q 22342187 5000000; i 345; i 1; q 53 50; q 47 50];
    [i 37; i 2; i 0; i 0; i 0; i 0; i 2; q 411 400; q (-3957247) 2500000; i 345; i 1; q 53 50; q 47 50];
    [i 38; i 2; i 0; i 0; i 0; i 0; i 3; q 2053 2000; q 38928177 10000000; i 345; i 1; q 53 50; q 47 50];
    [i 39; i 2; i 1104; i 250; i 0; i 0; i 1; q 103 100; q (-1816907) 125000; i 345; i 1; q 53 50; q 47 50]]
   [[i 30; i 250; q 80881 500; i 400; i 140; q 10499 10000; i 100; i 1; i 1040; i 0; i 0; i 0; i 0; i 0; i 0; i 0; i 0; i 0; i 0; i 0; i 0];
    [i 31; q 677871 1000; q 110787 500; i 300; i (-100); q 491 500; i 100; i 1; i 646; i 0; i 0; i 0; i 0; i 0; i 0; i 0; i 0; i 0; i 0; i 0; i 0];
    [i 32; i 650; q 41393 200; i 300; i 150; q 9841 10000; i 100; i 1; i 725; i 0; i 0; i 0; i 0; i 0; i 0; i 0; i 0; i 0; i 0; i 0; i 0];
    [i 33; i 632; q 108293 1000; i 250; i 0; q 2493 2500; i 100; i 1; i 652; i 0; i 0; i 0; i 0; i 0; i 0; i 0; i 0; i 0; i 0; i 0; i 0];
    [i 34; i 508; q 20836 125; i 167; i 0; q 10123 10000; i 100; i 1; i 508; i 0; i 0; i 0; i 0; i 0; i 0; i 0; i 0; i 0; i 0; i 0; i 0];
    [i 35; i 650; q 210661 1000; i 300; i (-100); q 5247 5000; i 100; i 1; i 687; i 0; i 0; i 0; i 0; i 0; i 0; i 0; i 0; i 0; i 0; i 0; i 0];
    [i 36; i 560; q 20033 200; i 240; i 0; q 2659 2500; i 100; i 1; i 580; i 0; i 0; i 0; i 0; i 0; i 0; i 0; i 0; i 0; i 0; i 0; i 0];
    [i 37; i 540; q (-27389) 20000; i 250; i 0; q 411 400; i 100; i 1; i 564; i 0; i 0; i 0; i 0; i 0; i 0; i 0; i 0; i 0; i 0; i 0; i 0];
    [i 38; i 830; q 217327 10000; i 300; i (-150); q 2053 2000; i 100; i 1; i 865; i 0; i 0; i 0; i 0; i 0; i 0; i 0; i 0; i 0; i 0; i 0; i 0];
    [i 39; i 1000; q 392337 5000; i 300; i (-100); q 103 100; i 100; i 1; i 1100; i 0; i 0; i 0; i 0; i 0; i 0; i 0; i 0; i 0; i 0; i 0; i 0]]
   [[i 1; i 2; q 7 2000; q 411 10000; q 6987 10000; i 600; i 600; i 600; i 0; i 0; i 1; i (-360); i 360];
    [i 1; i 39; q 1 1000; q 1 40; q 3 4; i 1000; i 1000; i 1000; i 0; i 0; i 1; i (-360); i 360];
    [i 2; i 3; q 13 10000; q 151 10000; q 643 2500; i 500; i 500; i 500; i 0; i 0; i 1; i (-360); i 360];
    [i 2; i 25; q 7 1000; q 43 5000; q 73 500; i 500; i 500; i 500; i 0; i 0; i 1; i (-360); i 360];
    [i 2; i 30; i 0; q 181 10000; i 0; i 900; i 900; i 2500; q 41 40; i 0; i 1; i (-360); i 360];
    [i 3; i 4; q 13 10000; q 213 10000; q 1107 5000; i 500; i 500; i 500; i 0; i 0; i 1; i (-360); i 360];
    [i 3; i 18; q 11 10000; q 133 10000; q 1069 5000; i 500; i 500; i 500; i 0; i 0; i 1; i (-360); i 360];
    [i 4; i 5; q 1 1250; q 8 625; q 671 5000; i 600; i 600; i 600; i 0; i 0; i 1; i (-360); i 360];
    [i 4; i 14; q 1 1250; q 129 10000; q 691 5000; i 500; i 500; i 500; i 0; i 0; i 1; i (-360); i 360];
    [i 5; i 6; q 1 5000; q 13 5000; q 217 5000; i 1200; i 1200; i 1200; i 0; i 0; i 1; i (-360); i 360];
    [i 5; i 8; q 1 1250; q 7 625; q 369 2500; i 900; i 900; i 900; i 0; i 0; i 1; i (-360); i 360];
    [i 6; i 7; q 3 5000; q 23 2500; q 113 1000; i 900; i 900; i 900; i 0; i 0; i 1; i (-360); i 360];
    [i 6; i 11; q 7 10000; q 41 5000; q 1389 10000; i 480; i 480; i 480; i 0; i 0; i 1; i (-360); i 360];
    [i 6; i 31; i 0; q 1 40; i 0; i 1800; i 1800; i 1800; q 107 100; i 0; i 1; i (-360); i 360];
    [i 7; i 8; q 1 2500; q 23 5000; q 39 500; i 900; i 900; i 900; i 0; i 0; i 1; i (-360); i 360];
    [i 8; i 9; q 23 10000; q 363 10000; q 951 2500; i 900; i 900; i 900; i 0; i 0; i 1; i (-360); i 360];
    [i 9; i 39; q 1 1000; q 1 40; q 6 5; i 900; i 900; i 900; i 0; i 0; i 1; i (-360); i 360];
    [i 10; i 11; q 1 2500; q 43 10000; q 729 10000; i 600; i 600; i 600; i 0; i 0; i 1; i (-360); i 360];
    [i 10; i 13; q 1 2500; q 43 10000; q 729 10000; i 600; i 600; i 600; i 0; i 0; i 1; i (-360); i 360];
    [i 10; i 32; i 0; q 1 50; i 0; i 900; i 900; i 2500; q 107 100; i 0; i 1; i (-360); i 360];
    [i 12; i 11; q 1 625; q 87 2000; i 0; i 500; i 500; i 500; q 503 500; i 0; i 1; i (-360); i 360];
    [i 12; i 13; q 1 625; q 87 2000; i 0; i 500; i 500; i 500; q 503 500; i 0; i 1; i (-360); i 360];
    [i 13; i 14; q 9 10000; q 101 10000; q 1723 10000; i 600; i 600; i 600; i 0; i 0; i 1; i (-360); i 360];
    [i 14; i 15; q 9 5000; q 217 10000; q 183 500; i 600; i 600; i 600; i 0; i 0; i 1; i (-360); i 360];
    [i 15; i 16; q 9 10000; q 47 5000; q 171 1000; i 600; i 600; i 600; i 0; i 0; i 1; i (-360); i 360];
    [i 16; i 17; q 7 10000; q 89 10000; q 671 5000; i 600; i 600; i 600; i 0; i 0; i 1; i (-360); i 360];
    [i 16; i 19; q 1 625; q 39 2000; q 38 125; i 600; i 600; i 2500; i 0; i 0; i 1; i (-360); i 360];
    [i 16; i 21; q 1 1250; q 27 2000; q 637 2500; i 600; i 600; i 600; i 0; i 0; i 1; i (-360); i 360];
    [i 16; i 24; q 3 10000; q 59 10000; q 17 250; i 600; i 600; i 600; i 0; i 0; i 1; i (-360); i 360];
    [i 17; i 18; q 7 10000; q 41 5000; q 1319 10000; i 600; i 600; i 600; i 0; i 0; i 1; i (-360); i 360];
    [i 17; i 27; q 13 10000; q 173 10000; q 201 625; i 600; i 600; i 600; i 0; i 0; i 1; i (-360); i 360];
    [i 19; i 20; q 7 10000; q 69 5000; i 0; i 900; i 900; i 2500; q 53 50; i 0; i 1; i (-360); i 360];
    [i 19; i 33; q 7 10000; q 71 5000; i 0; i 900; i 900; i 2500; q 107 100; i 0; i 1; i (-360); i 360];
    [i 20; i 34; q 9 10000; q 9 500; i 0; i 900; i 900; i 2500; q 1009 1000; i 0; i 1; i (-360); i 360];
    [i 21; i 22; q 1 1250; q 7 500; q 513 2000; i 900; i 900; i 900; i 0; i 0; i 1; i (-360); i 360];
    [i 22; i 23; q 3 5000; q 6 625; q 923 5000; i 600; i 600; i 600; i 0; i 0; i 1; i (-360); i 360];
    [i 22; i 35; i 0; q 143 10000; i 0; i 900; i 900; i 2500; q 41 40; i 0; i 1; i (-360); i 360];
    [i 23; i 24; q 11 5000; q 7 200; q 361 1000; i 600; i 600; i 600; i 0; i 0; i 1; i (-360); i 360];
    [i 23; i 36; q 1 2000; q 17 625; i 0; i 900; i 900; i 2500; i 1; i 0; i 1; i (-360); i 360];
    [i 25; i 26; q 2 625; q 323 10000; q 531 1000; i 600; i 600; i 600; i 0; i 0; i 1; i (-360); i 360];
    [i 25; i 37; q 3 5000; q 29 1250; i 0; i 900; i 900; i 2500; q 41 40; i 0; i 1; i (-360); i 360];
    [i 26; i 27; q 7 5000; q 147 10000; q 599 2500; i 600; i 600; i 600; i 0; i 0; i 1; i (-360); i 360];
    [i 26; i 28; q 43 10000; q 237 5000; q 3901 5000; i 600; i 600; i 600; i 0; i 0; i 1; i (-360); i 360];
    [i 26; i 29; q 57 10000; q 1 16; q 1029 1000; i 600; i 600; i 600; i 0; i 0; i 1; i (-360); i 360];
    [i 28; i 29; q 7 5000; q 151 10000; q 249 1000; i 600; i 600; i 600; i 0; i 0; i 1; i (-360); i 360];
    [i 29; i 38; q 1 1250; q 39 2500; i 0; i 1200; i 1200; i 2500; q 41 40; i 0; i 1; i (-360); i 360]]
   (None)
   (Some
   [[i 2; i 0; i 0; i 3; q 1 100; q 3 10; q 1 5];
    [i 2; i 0; i 0; i 3; q 1 100; q 3 10; q 1 5];
    [i 2; i 0; i 0; i 3; q 1 100; q 3 10; q 1 5];
    [i 2; i 0; i 0; i 3; q 1 100; q 3 10; q 1 5];
    [i 2; i 0; i 0; i 3; q 1 100; q 3 10; q 1 5];
    [i 2; i 0; i 0; i 3; q 1 100; q 3 10; q 1 5];
    [i 2; i 0; i 0; i 3; q 1 100; q 3 10; q 1 5];
    [i 2; i 0; i 0; i 3; q 1 100; q 3 10; q 1 5];
    [i 2; i 0; i 0; i 3; q 1 100; q 3 10; q 1 5];
    [i 2; i 0; i 0; i 3; q 1 100; q 3 10; q 1 5]]).

(** pypower/case57.py *)
Definition case57 : bundle := Bundle "case57" 100
   [[i 1; i 3; i 55; i 17; i 0; i 0; i 1; q 26 25; i 0; i 0; i 1; q 53 50; q 47 50];
    [i 2; i 2; i 3; i 88; i 0; i 0; i 1; q 101 100; q (-59) 50; i 0; i 1; q 53 50; q 47 50];
    [i 3; i 2; i 41; i 21; i 0; i 0; i 1; q 197 200; q (-597) 100; i 0; i 1; q 53 50; q 47 50];
    [i 4; i 1; i 0; i 0; i 0; i 0; i 1; q 981 1000; q (-183) 25; i 0; i 1; q 53 50; q 47 50];
    [i 5; i 1; i 13; i 4; i 0; i 0; i 1; q 122 125; q (-213) 25; i 0; i 1; q 53 50; q 47 50];
    [i 6; i 2; i 75; i 2; i 0; i 0; i 1; q 49 50; q (-173) 20; i 0; i 1; q 53 50; q 47 50];
    [i 7; i 1; i 0; i 0; i 0; i 0; i 1; q 123 125; q (-379) 50; i 0; i 1; q 53 50; q 47 50];
    [i 8; i 2; i 150; i 22; i 0; i 0; i 1; q 201 200; q (-89) 20; i 0; i 1; q 53 50; q 47 50];
    [i 9; i 2; i 121; i 26; i 0; i 0; i 1; q 49 50; q (-239) 25; i 0; i 1; q 53 50; q 47 50];
    [i 10; i 1; i 5; i 2; i 0; i 0; i 1; q 493 500; q (-1143) 100; i 0; i 1; q 53 50; q 47 50];
    [i 11; i 1; i 0; i 0; i 0; i 0; i 1; q 487 500; q (-1017) 100; i 0; i 1; q 53 50; q 47 50];
    [i 12; i 2; i 377; i 24; i 0; i 0; i 1; q 203 200; q (-523) 50; i 0; i 1; q 53 50; q 47 50];
    [i 13; i 1; i 18; q 23 10; i 0; i 0; i 1; q 979 1000; q (-979) 100; i 0; i 1; q 53 50; q 47 50];
    [i 14; i 1; q 21 2; q 53 10; i 0; i 0; i 1; q 97 100; q (-933) 100; i 0; i 1; q 53 50; q 47 50];
    [i 15; i 1; i 22; i 5; i 0; i 0; i 1; q 247 250; q (-359) 50; i 0; i 1; q 53 50; q 47 50];
    [i 16; i 1; i 43; i 3; i 0; i 0; i 1; q 1013 1000; q (-177) 20; i 0; i 1; q 53 50; q 47 50];
    [i 17; i 1; i 42; i 8; i 0; i 0; i 1; q 1017 1000; q (-539) 100; i 0; i 1; q 53 50; q 47 50];
    [i 18; i 1; q 136 5; q 49 5; i 0; i 10; i 1; q 1001 1000; q (-1171) 100; i 0; i 1; q 53 50; q 47 50];
    [i 19; i 1; q 33 10; q 3 5; i 0; i 0; i 1; q 97 100; q (-66) 5; i 0; i 1; q 53 50; q 47 50];
    [i 20; i 1; q 23 10; i 1; i 0; i 0; i 1; q 241 250; q (-1341) 100; i 0; i 1; q 53 50; q 47 50];
    [i 21; i 1; i 0; i 0; i 0; i 0; i 1; q 126 125; q (-1289) 100; i 0; i 1; q 53 50; q 47 50];
    [i 22; i 1; i 0; i 0; i 0; i 0; i 1; q 101 100; q (-321) 25; i 0; i 1; q 53 50; q 47 50];
    [i 23; i 1; q 63 10; q 21 10; i 0; i 0; i 1; q 126 125; q (-1291) 100; i 0; i 1; q 53 50; q 47 50];
    [i 24; i 1; i 0; i 0; i 0; i 0; i 1; q 999 1000; q (-53) 4; i 0; i 1; q 53 50; q 47 50];
    [i 25; i 1; q 63 10; q 16 5; i 0; q 59 10; i 1; q 491 500; q (-1813) 100; i 0; i 1; q 53 50; q 47 50];
    [i 26; i 1; i 0; i 0; i 0; i 0; i 1; q 959 1000; q (-259) 20; i 0; i 1; q 53 50; q 47 50];
    [i 27; i 1; q 93 10; q 1 2; i 0; i 0; i 1; q 491 500; q (-287) 25; i 0; i 1; q 53 50; q 47 50];
    [i 28; i 1; q 23 5; q 23 10; i 0; i 0; i 1; q 997 1000; q (-209) 20; i 0; i 1; q 53 50; q 47 50];
    [i 29; i 1; i 17; q 13 5; i 0; i 0; i 1; q 101 100; q (-39) 4; i 0; i 1; q 53 50; q 47 50];
    [i 30; i 1; q 18 5; q 9 5; i 0; i 0; i 1; q 481 500; q (-467) 25; i 0; i 1; q 53 50; q 47 50];
    [i 31; i 1; q 29 5; q 29 10; i 0; i 0; i 1; q 117 125; q (-967) 50; i 0; i 1; q 53 50; q 47 50];
    [i 32; i 1; q 8 5; q 4 5; i 0; i 0; i 1; q 949 1000; q (-923) 50; i 0; i 1; q 53 50; q 47 50];
    [i 33; i 1; q 19 5; q 19 10; i 0; i 0; i 1; q 947 1000; q (-37) 2; i 0; i 1; q 53 50; q 47 50];
    [i 34; i 1; i 0; i 0; i 0; i 0; i 1; q 959 1000; q (-141) 10; i 0; i 1; q 53 50; q 47 50];
    [i 35; i 1; i 6; i 3; i 0; i 0; i 1; q 483 500; q (-693) 50; i 0; i 1; q 53 50; q 47 50];
    [i 36; i 1; i 0; i 0; i 0; i 0; i 1; q 122 125; q (-1359) 100; i 0; i 1; q 53 50; q 47 50];
    [i 37; i 1; i 0; i 0; i 0; i 0; i 1; q 197 200; q (-1341) 100; i 0; i 1; q 53 50; q 47 50];
    [i 38; i 1; i 14; i 7; i 0; i 0; i 1; q 1013 1000; q (-1271) 100; i 0; i 1; q 53 50; q 47 50];
    [i 39; i 1; i 0; i 0; i 0; i 0; i 1; q 983 1000; q (-673) 50; i 0; i 1; q 53 50; q 47 50];
    [i 40; i 1; i 0; i 0; i 0; i 0; i 1; q 973 1000; q (-681) 50; i 0; i 1; q 53 50; q 47 50];
    [i 41; i 1; q 63 10; i 3; i 0; i 0; i 1; q 249 250; q (-281) 20; i 0; i 1; q 53 50; q 47 50];
    [i 42; i 1; q 71 10; q 22 5; i 0; i 0; i 1; q 483 500; q (-31) 2; i 0; i 1; q 53 50; q 47 50];
    [i 43; i 1; i 2; i 1; i 0; i 0; i 1; q 101 100; q (-1133) 100; i 0; i 1; q 53 50; q 47 50];
    [i 44; i 1; i 12; q 9 5; i 0; i 0; i 1; q 1017 1000; q (-593) 50; i 0; i 1; q 53 50; q 47 50];
    [i 45; i 1; i 0; i 0; i 0; i 0; i 1; q 259 250; q (-37) 4; i 0; i 1; q 53 50; q 47 50];
    [i 46; i 1; i 0; i 0; i 0; i 0; i 1; q 21 20; q (-1189) 100; i 0; i 1; q 53 50; q 47 50];
    [i 47; i 1; q 297 10; q 58 5; i 0; i 0; i 1; q 1033 1000; q (-1249) 100; i 0; i 1; q 53 50; q 47 50];
    [i 48; i 1; i 0; i 0; i 0; i 0; i 1; q 1027 1000; q (-1259) 100; i 0; i 1; q 53 50; q 47 50];
    [i 49; i 1; i 18; q 17 2; i 0; i 0; i 1; q 259 250; q (-323) 25; i 0; i 1; q 53 50; q 47 50];
    [i 50; i 1; i 21; q 21 2; i 0; i 0; i 1; q 1023 1000; q (-1339) 100; i 0; i 1; q 53 50; q 47 50];
    [i 51; i 1; i 18; q 53 10; i 0; i 0; i 1; q 263 250; q (-313) 25; i 0; i 1; q 53 50; q 47 50];
    [i 52; i 1; q 49 10; q 11 5; i 0; i 0; i 1; q 49 50; q (-1147) 100; i 0; i 1; q 53 50; q 47 50];
    [i 53; i 1; i 20; i 10; i 0; q 63 10; i 1; q 971 1000; q (-1223) 100; i 0; i 1; q 53 50; q 47 50];
    [i 54; i 1; q 41 10; q 7 5; i 0; i 0; i 1; q 249 250; q (-1169) 100; i 0; i 1; q 53 50; q 47 50];
    [i 55; i 1; q 34 5; q 17 5; i 0; i 0; i 1; q 1031 1000; q (-539) 50; i 0; i 1; q 53 50; q 47 50];
    [i 56; i 1; q 38 5; q 11 5; i 0; i 0; i 1; q 121 125; q (-401) 25; i 0; i 1; q 53 50; q 47 50];
    [i 57; i 1; q 67 10; i 2; i 0; i 0; i 1; q 193 200; q (-414) 25; i 0; i 1; q 53 50; q 47 50]]
   [[i 1; q 1289 10; q (-161) 10; i 200; i (-140); q 26 25; i 100; i 1; q 14397 25; i 0; i 0; i 0; i 0; i 0; i 0; i 0; i 0; i 0; i 0; i 0; i 0];
    [i 2; i 0; q (-4) 5; i 50; i (-17); q 101 100; i 100; i 1; i 100; i 0; i 0; i 0; i 0; i 0; i 0; i 0; i 0; i 0; i 0; i 0; i 0];
    [i 3; i 40; i (-1); i 60; i (-10); q 197 200; i 100; i 1; i 140; i 0; i 0; i 0; i 0; i 0; i 0; i 0; i 0; i 0; i 0; i 0; i 0];
    [i 6; i 0; q 4 5; i 25; i (-8); q 49 50; i 100; i 1; i 100; i 0; i 0; i 0; i 0; i 0; i 0; i 0; i 0; i 0; i 0; i 0; i 0];
    [i 8; i 450; q 621 10; i 200; i (-140); q 201 200; i 100; i 1; i 550; i 0; i 0; i 0; i 0; i 0; i 0; i 0; i 0; i 0; i 0; i 0; i 0];
    [i 9; i 0; q 11 5; i 9; i (-3); q 49 50; i 100; i 1; i 100; i 0; i 0; i 0; i 0; i 0; i 0; i 0; i 0; i 0; i 0; i 0; i 0];
    [i 12; i 310; q 257 2; i 155; i (-150); q 203 200; i 100; i 1; i 410; i 0; i 0; i 0; i 0; i 0; i 0; i 0; i 0; i 0; i 0; i 0; i 0]]
   [[i 1; i 2; q 83 10000; q 7 250; q 129 1000; i 9900; i 0; i 0; i 0; i 0; i 1; i (-360); i 360];
    [i 2; i 3; q 149 5000; q 17 200; q 409 5000; i 9900; i 0; i 0; i 0; i 0; i 1; i (-360); i 360];
    [i 3; i 4; q 7 625; q 183 5000; q 19 500; i 9900; i 0; i 0; i 0; i 0; i 1; i (-360); i 360];
    [i 4; i 5; q 1 16; q 33 250; q 129 5000; i 9900; i 0; i 0; i 0; i 0; i 1; i (-360); i 360];
    [i 4; i 6; q 43 1000; q 37 250; q 87 2500; i 9900; i 0; i 0; i 0; i 0; i 1; i (-360); i 360];
    [i 6; i 7; q 1 50; q 51 500; q 69 2500; i 9900; i 0; i 0; i 0; i 0; i 1; i (-360); i 360];
    [i 6; i 8; q 339 10000; q 173 1000; q 47 1000; i 9900; i 0; i 0; i 0; i 0; i 1; i (-360); i 360];
    [i 8; i 9; q 99 10000; q 101 2000; q 137 2500; i 9900; i 0; i 0; i 0; i 0; i 1; i (-360); i 360];
    [i 9; i 10; q 369 10000; q 1679 10000; q 11 250; i 9900; i 0; i 0; i 0; i 0; i 1; i (-360); i 360];
    [i 9; i 11; q 129 5000; q 53 625; q 109 5000; i 9900; i 0; i 0; i 0; i 0; i 1; i (-360); i 360];
    [i 9; i 12; q 81 1250; q 59 200; q 193 2500; i 9900; i 0; i 0; i 0; i 0; i 1; i (-360); i 360];
    [i 9; i 13; q 481 10000; q 79 500; q 203 5000; i 9900; i 0; i 0; i 0; i 0; i 1; i (-360); i 360];
    [i 13; i 14; q 33 2500; q 217 5000; q 11 1000; i 9900; i 0; i 0; i 0; i 0; i 1; i (-360); i 360];
    [i 13; i 15; q 269 10000; q 869 10000; q 23 1000; i 9900; i 0; i 0; i 0; i 0; i 1; i (-360); i 360];
    [i 1; i 15; q 89 5000; q 91 1000; q 247 2500; i 9900; i 0; i 0; i 0; i 0; i 1; i (-360); i 360];
    [i 1; i 16; q 227 5000; q 103 500; q 273 5000; i 9900; i 0; i 0; i 0; i 0; i 1; i (-360); i 360];
    [i 1; i 17; q 119 5000; q 27 250; q 143 5000; i 9900; i 0; i 0; i 0; i 0; i 1; i (-360); i 360];
    [i 3; i 15; q 81 5000; q 53 1000; q 34 625; i 9900; i 0; i 0; i 0; i 0; i 1; i (-360); i 360];
    [i 4; i 18; i 0; q 111 200; i 0; i 9900; i 0; i 0; q 97 100; i 0; i 1; i (-360); i 360];
    [i 4; i 18; i 0; q 43 100; i 0; i 9900; i 0; i 0; q 489 500; i 0; i 1; i (-360); i 360];
    [i 5; i 6; q 151 5000; q 641 10000; q 31 2500; i 9900; i 0; i 0; i 0; i 0; i 1; i (-360); i 360];
    [i 7; i 8; q 139 10000; q 89 1250; q 97 5000; i 9900; i 0; i 0; i 0; i 0; i 1; i (-360); i 360];
    [i 10; i 12; q 277 10000; q 631 5000; q 41 1250; i 9900; i 0; i 0; i 0; i 0; i 1; i (-360); i 360];
    [i 11; i 13; q 223 10000; q 183 2500; q 47 2500; i 9900; i 0; i 0; i 0; i 0; i 1; i (-360); i 360];
    [i 12; i 13; q 89 5000; q 29 500; q 151 2500; i 9900; i 0; i 0; i 0; i 0; i 1; i (-360); i 360];
    [i 12; i 16; q 9 500; q 813 10000; q 27 1250; i 9900; i 0; i 0; i 0; i 0; i 1; i (-360); i 360];
    [i 12; i 17; q 397 10000; q 179 1000; q 119 2500; i 9900; i 0; i 0; i 0; i 0; i 1; i (-360); i 360];
    [i 14; i 15; q 171 10000; q 547 10000; q 37 2500; i 9900; i 0; i 0; i 0; i 0; i 1; i (-360); i 360];
    [i 18; i 19; q 461 1000; q 137 200; i 0; i 9900; i 0; i 0; i 0; i 0; i 1; i (-360); i 360];
    [i 19; i 20; q 283 1000; q 217 500; i 0; i 9900; i 0; i 0; i 0; i 0; i 1; i (-360); i 360];
    [i 21; i 20; i 0; q 7767 10000; i 0; i 9900; i 0; i 0; q 1043 1000; i 0; i 1; i (-360); i 360];
    [i 21; i 22; q 46 625; q 117 1000; i 0; i 9900; i 0; i 0; i 0; i 0; i 1; i (-360); i 360];
    [i 22; i 23; q 99 10000; q 19 1250; i 0; i 9900; i 0; i 0; i 0; i 0; i 1; i (-360); i 360];
    [i 23; i 24; q 83 500; q 32 125; q 21 2500; i 9900; i 0; i 0; i 0; i 0; i 1; i (-360); i 360];
    [i 24; i 25; i 0; q 591 500; i 0; i 9900; i 0; i 0; i 1; i 0; i 1; i (-360); i 360];
    [i 24; i 25; i 0; q 123 100; i 0; i 9900; i 0; i 0; i 1; i 0; i 1; i (-360); i 360];
    [i 24; i 26; i 0; q 473 10000; i 0; i 9900; i 0; i 0; q 1043 1000; i 0; i 1; i (-360); i 360];
    [i 26; i 27; q 33 200; q 127 500; i 0; i 9900; i 0; i 0; i 0; i 0; i 1; i (-360); i 360];
    [i 27; i 28; q 309 5000; q 477 5000; i 0; i 9900; i 0; i 0; i 0; i 0; i 1; i (-360); i 360];
    [i 28; i 29; q 209 5000; q 587 10000; i 0; i 9900; i 0; i 0; i 0; i 0; i 1; i (-360); i 360];
    [i 7; i 29; i 0; q 81 1250; i 0; i 9900; i 0; i 0; q 967 1000; i 0; i 1; i (-360); i 360];
    [i 25; i 30; q 27 200; q 101 500; i 0; i 9900; i 0; i 0; i 0; i 0; i 1; i (-360); i 360];
    [i 30; i 31; q 163 500; q 497 1000; i 0; i 9900; i 0; i 0; i 0; i 0; i 1; i (-360); i 360];
    [i 31; i 32; q 507 1000; q 151 200; i 0; i 9900; i 0; i 0; i 0; i 0; i 1; i (-360); i 360];
    [i 32; i 33; q 49 1250; q 9 250; i 0; i 9900; i 0; i 0; i 0; i 0; i 1; i (-360); i 360];
    [i 34; i 32; i 0; q 953 1000; i 0; i 9900; i 0; i 0; q 39 40; i 0; i 1; i (-360); i 360];
    [i 34; i 35; q 13 250; q 39 500; q 2 625; i 9900; i 0; i 0; i 0; i 0; i 1; i (-360); i 360];
    [i 35; i 36; q 43 1000; q 537 10000; q 1 625; i 9900; i 0; i 0; i 0; i 0; i 1; i (-360); i 360];
    [i 36; i 37; q 29 1000; q 183 5000; i 0; i 9900; i 0; i 0; i 0; i 0; i 1; i (-360); i 360];
    [i 37; i 38; q 651 10000; q 1009 10000; q 1 500; i 9900; i 0; i 0; i 0; i 0; i 1; i (-360); i 360];
    [i 37; i 39; q 239 10000; q 379 10000; i 0; i 9900; i 0; i 0; i 0; i 0; i 1; i (-360); i 360];
    [i 36; i 40; q 3 100; q 233 5000; i 0; i 9900; i 0; i 0; i 0; i 0; i 1; i (-360); i 360];
    [i 22; i 38; q 12 625; q 59 2000; i 0; i 9900; i 0; i 0; i 0; i 0; i 1; i (-360); i 360];
    [i 11; i 41; i 0; q 749 1000; i 0; i 9900; i 0; i 0; q 191 200; i 0; i 1; i (-360); i 360];
    [i 41; i 42; q 207 1000; q 44 125; i 0; i 9900; i 0; i 0; i 0; i 0; i 1; i (-360); i 360];
    [i 41; i 43; i 0; q 103 250; i 0; i 9900; i 0; i 0; i 0; i 0; i 1; i (-360); i 360];
    [i 38; i 44; q 289 10000; q 117 2000; q 1 500; i 9900; i 0; i 0; i 0; i 0; i 1; i (-360); i 360];
    [i 15; i 45; i 0; q 521 5000; i 0; i 9900; i 0; i 0; q 191 200; i 0; i 1; i (-360); i 360];
    [i 14; i 46; i 0; q 147 2000; i 0; i 9900; i 0; i 0; q 9 10; i 0; i 1; i (-360); i 360];
    [i 46; i 47; q 23 1000; q 17 250; q 2 625; i 9900; i 0; i 0; i 0; i 0; i 1; i (-360); i 360];
    [i 47; i 48; q 91 5000; q 233 10000; i 0; i 9900; i 0; i 0; i 0; i 0; i 1; i (-360); i 360];
    [i 48; i 49; q 417 5000; q 129 1000; q 3 625; i 9900; i 0; i 0; i 0; i 0; i 1; i (-360); i 360];
    [i 49; i 50; q 801 10000; q 16 125; i 0; i 9900; i 0; i 0; i 0; i 0; i 1; i (-360); i 360];
    [i 50; i 51; q 693 5000; q 11 50; i 0; i 9900; i 0; i 0; i 0; i 0; i 1; i (-360); i 360];
    [i 10; i 51; i 0; q 89 1250; i 0; i 9900; i 0; i 0; q 93 100; i 0; i 1; i (-360); i 360];
    [i 13; i 49; i 0; q 191 1000; i 0; i 9900; i 0; i 0; q 179 200; i 0; i 1; i (-360); i 360];
    [i 29; i 52; q 721 5000; q 187 1000; i 0; i 9900; i 0; i 0; i 0; i 0; i 1; i (-360); i 360];
    [i 52; i 53; q 381 5000; q 123 1250; i 0; i 9900; i 0; i 0; i 0; i 0; i 1; i (-360); i 360];
    [i 53; i 54; q 939 5000; q 29 125; i 0; i 9900; i 0; i 0; i 0; i 0; i 1; i (-360); i 360];
    [i 54; i 55; q 433 2500; q 453 2000; i 0; i 9900; i 0; i 0; i 0; i 0; i 1; i (-360); i 360];
    [i 11; i 43; i 0; q 153 1000; i 0; i 9900; i 0; i 0; q 479 500; i 0; i 1; i (-360); i 360];
    [i 44; i 45; q 39 625; q 621 5000; q 1 250; i 9900; i 0; i 0; i 0; i 0; i 1; i (-360); i 360];
    [i 40; i 56; i 0; q 239 200; i 0; i 9900; i 0; i 0; q 479 500; i 0; i 1; i (-360); i 360];
    [i 56; i 41; q 553 1000; q 549 1000; i 0; i 9900; i 0; i 0; i 0; i 0; i 1; i (-360); i 360];
    [i 56; i 42; q 17 80; q 177 500; i 0; i 9900; i 0; i 0; i 0; i 0; i 1; i (-360); i 360];
    [i 39; i 57; i 0; q 271 200; i 0; i 9900; i 0; i 0; q 49 50; i 0; i 1; i (-360); i 360];
    [i 57; i 56; q 87 500; q 13 50; i 0; i 9900; i 0; i 0; i 0; i 0; i 1; i (-360); i 360];
    [i 38; i 49; q 23 200; q 177 1000; q 3 1000; i 9900; i 0; i 0; i 0; i 0; i 1; i (-360); i 360];
    [i 38; i 48; q 39 1250; q 241 5000; i 0; i 9900; i 0; i 0; i 0; i 0; i 1; i (-360); i 360];
    [i 9; i 55; i 0; q 241 2000; i 0; i 9900; i 0; i 0; q 47 50; i 0; i 1; i (-360); i 360]]
   (None)
   (Some
   [[i 2; i 0; i 0; i 3; q 155159 2000000; i 20; i 0];
    [i 2; i 0; i 0; i 3; q 1 100; i 40; i 0];
    [i 2; i 0; i 0; i 3; q 1 4; i 20; i 0];
    [i 2; i 0; i 0; i 3; q 1 100; i 40; i 0];
    [i 2; i 0; i 0; i 3; q 111111 5000000; i 20; i 0];
    [i 2; i 0; i 0; i 3; q 1 100; i 40; i 0];
    [i 2; i 0; i 0; i 3; q 322581 10000000; i 20; i 0]]).

(** pypower/case118.py *)
Definition case118 : bundle := Bundle "case118" 100
   [[i 1; i 2; i 51; i 27; i 0; i 0; i 1; q 191 200; q 1067 100; i 138; i 1; q 53 50; q 47 50];
    [i 2; i 1; i 20; i 9; i 0; i 0; i 1; q 971 1000; q 561 50; i 138; i 1; q 53 50; q 47 50];
    [i 3; i 1; i 39; i 10; i 0; i 0; i 1; q 121 125; q 289 25; i 138; i 1; q 53 50; q 47 50];
    [i 4; i 2; i 39; i 12; i 0; i 0; i 1; q 499 500; q 382 25; i 138; i 1; q 53 50; q 47 50];
    [i 5; i 1; i 0; i 0; i 0; i (-40); i 1; q 501 500; q 1573 100; i 138; i 1; q 53 50; q 47 50];
    [i 6; i 2; i 52; i 22; i 0; i 0; i 1; q 99 100; i 13; i 138; i 1; q 53 50; q 47 50];
    [i 7; i 1; i 19; i 2; i 0; i 0; i 1; q 989 1000; q 314 25; i 138; i 1; q 53 50; q 47 50];
    [i 8; i 2; i 28; i 0; i 0; i 0; i 1; q 203 200; q 2077 100; i 345; i 1; q 53 50; q 47 50];
    [i 9; i 1; i 0; i 0; i 0; i 0; i 1; q 1043 1000; q 1401 50; i 345; i 1; q 53 50; q 47 50];
    [i 10; i 2; i 0; i 0; i 0; i 0; i 1; q 21 20; q 3561 100; i 345; i 1; q 53 50; q 47 50];
    [i 11; i 1; i 70; i 23; i 0; i 0; i 1; q 197 200; q 318 25; i 138; i 1; q 53 50; q 47 50];
    [i 12; i 2; i 47; i 10; i 0; i 0; i 1; q 99 100; q 61 5; i 138; i 1; q 53 50; q 47 50];
    [i 13; i 1; i 34; i 16; i 0; i 0; i 1; q 121 125; q 227 20; i 138; i 1; q 53 50; q 47 50];
    [i 14; i 1; i 14; i 1; i 0; i 0; i 1; q 123 125; q 23 2; i 138; i 1; q 53 50; q 47 50];
    [i 15; i 2; i 90; i 30; i 0; i 0; i 1; q 97 100; q 1123 100; i 138; i 1; q 53 50; q 47 50];
    [i 16; i 1; i 25; i 10; i 0; i 0; i 1; q 123 125; q 1191 100; i 138; i 1; q 53 50; q 47 50];
    [i 17; i 1; i 11; i 3; i 0; i 0; i 1; q 199 200; q 687 50; i 138; i 1; q 53 50; q 47 50];
    [i 18; i 2; i 60; i 34; i 0; i 0; i 1; q 973 1000; q 1153 100; i 138; i 1; q 53 50; q 47 50];
    [i 19; i 2; i 45; i 25; i 0; i 0; i 1; q 963 1000; q 221 20; i 138; i 1; q 53 50; q 47 50];
    [i 20; i 1; i 18; i 3; i 0; i 0; i 1; q 479 500; q 1193 100; i 138; i 1; q 53 50; q 47 50];
    [i 21; i 1; i 14; i 8; i 0; i 0; i 1; q 959 1000; q 338 25; i 138; i 1; q 53 50; q 47 50];
    [i 22; i 1; i 10; i 5; i 0; i 0; i 1; q 97 100; q 402 25; i 138; i 1; q 53 50; q 47 50];
    [i 23; i 1; i 7; i 3; i 0; i 0; i 1; i 1; i 21; i 138; i 1; q 53 50; q 47 50];
    [i 24; i 2; i 13; i 0; i 0; i 0; i 1; q 124 125; q 2089 100; i 138; i 1; q 53 50; q 47 50];
    [i 25; i 2; i 0; i 0; i 0; i 0; i 1; q 21 20; q 2793 100; i 138; i 1; q 53 50; q 47 50];
    [i 26; i 2; i 0; i 0; i 0; i 0; i 1; q 203 200; q 2971 100; i 345; i 1; q 53 50; q 47 50];
    [i 27; i 2; i 71; i 13; i 0; i 0; i 1; q 121 125; q 307 20; i 138; i 1; q 53 50; q 47 50];
    [i 28; i 1; i 17; i 7; i 0; i 0; i 1; q 481 500; q 681 50; i 138; i 1; q 53 50; q 47 50];
    [i 29; i 1; i 24; i 4; i 0; i 0; i 1; q 963 1000; q 1263 100; i 138; i 1; q 53 50; q 47 50];
    [i 30; i 1; i 0; i 0; i 0; i 0; i 1; q 121 125; q 1879 100; i 345; i 1; q 53 50; q 47 50];
    [i 31; i 2; i 43; i 27; i 0; i 0; i 1; q 967 1000; q 51 4; i 138; i 1; q 53 50; q 47 50];
    [i 32; i 2; i 59; i 23; i 0; i 0; i 1; q 241 250; q 74 5; i 138; i 1; q 53 50; q 47 50];
    [i 33; i 1; i 23; i 9; i 0; i 0; i 1; q 243 250; q 1063 100; i 138; i 1; q 53 50; q 47 50];
    [i 34; i 2; i 59; i 26; i 0; i 14; i 1; q 493 500; q 113 10; i 138; i 1; q 53 50; q 47 50];
    [i 35; i 1; i 33; i 9; i 0; i 0; i 1; q 981 1000; q 1087 100; i 138; i 1; q 53 50; q 47 50];
    [i 36; i 2; i 31; i 17; i 0; i 0; i 1; q 49 50; q 1087 100; i 138; i 1; q 53 50; q 47 50];
    [i 37; i 1; i 0; i 0; i 0; i (-25); i 1; q 124 125; q 1177 100; i 138; i 1; q 53 50; q 47 50];
    [i 38; i 1; i 0; i 0; i 0; i 0; i 1; q 481 500; q 1691 100; i 345; i 1; q 53 50; q 47 50];
    [i 39; i 1; i 27; i 11; i 0; i 0; i 1; q 97 100; q 841 100; i 138; i 1; q 53 50; q 47 50];
    [i 40; i 2; i 66; i 23; i 0; i 0; i 1; q 97 100; q 147 20; i 138; i 1; q 53 50; q 47 50];
    [i 41; i 1; i 37; i 10; i 0; i 0; i 1; q 967 1000; q 173 25; i 138; i 1; q 53 50; q 47 50];
    [i 42; i 2; i 96; i 23; i 0; i 0; i 1; q 197 200; q 853 100; i 138; i 1; q 53 50; q 47 50];
    [i 43; i 1; i 18; i 7; i 0; i 0; i 1; q 489 500; q 282 25; i 138; i 1; q 53 50; q 47 50];
    [i 44; i 1; i 16; i 8; i 0; i 10; i 1; q 197 200; q 691 50; i 138; i 1; q 53 50; q 47 50];
    [i 45; i 1; i 53; i 22; i 0; i 10; i 1; q 987 1000; q 1567 100; i 138; i 1; q 53 50; q 47 50];
    [i 46; i 2; i 28; i 10; i 0; i 10; i 1; q 201 200; q 1849 100; i 138; i 1; q 53 50; q 47 50];
    [i 47; i 1; i 34; i 0; i 0; i 0; i 1; q 1017 1000; q 2073 100; i 138; i 1; q 53 50; q 47 50];
    [i 48; i 1; i 20; i 11; i 0; i 15; i 1; q 1021 1000; q 1993 100; i 138; i 1; q 53 50; q 47 50];
    [i 49; i 2; i 87; i 30; i 0; i 0; i 1; q 41 40; q 1047 50; i 138; i 1; q 53 50; q 47 50];
    [i 50; i 1; i 17; i 4; i 0; i 0; i 1; q 1001 1000; q 189 10; i 138; i 1; q 53 50; q 47 50];
    [i 51; i 1; i 17; i 8; i 0; i 0; i 1; q 967 1000; q 407 25; i 138; i 1; q 53 50; q 47 50];
    [i 52; i 1; i 18; i 5; i 0; i 0; i 1; q 957 1000; q 383 25; i 138; i 1; q 53 50; q 47 50];
    [i 53; i 1; i 23; i 11; i 0; i 0; i 1; q 473 500; q 287 20; i 138; i 1; q 53 50; q 47 50];
    [i 54; i 2; i 113; i 32; i 0; i 0; i 1; q 191 200; q 763 50; i 138; i 1; q 53 50; q 47 50];
    [i 55; i 2; i 63; i 22; i 0; i 0; i 1; q 119 125; q 1497 100; i 138; i 1; q 53 50; q 47 50];
    [i 56; i 2; i 84; i 18; i 0; i 0; i 1; q 477 500; q 379 25; i 138; i 1; q 53 50; q 47 50];
    [i 57; i 1; i 12; i 3; i 0; i 0; i 1; q 971 1000; q 409 25; i 138; i 1; q 53 50; q 47 50];
    [i 58; i 1; i 12; i 3; i 0; i 0; i 1; q 959 1000; q 1551 100; i 138; i 1; q 53 50; q 47 50];
    [i 59; i 2; i 277; i 113; i 0; i 0; i 1; q 197 200; q 1937 100; i 138; i 1; q 53 50; q 47 50];
    [i 60; i 1; i 78; i 3; i 0; i 0; i 1; q 993 1000; q 463 20; i 138; i 1; q 53 50; q 47 50];
    [i 61; i 2; i 0; i 0; i 0; i 0; i 1; q 199 200; q 601 25; i 138; i 1; q 53 50; q 47 50];
    [i 62; i 2; i 77; i 14; i 0; i 0; i 1; q 499 500; q 2343 100; i 138; i 1; q 53 50; q 47 50];
    [i 63; i 1; i 0; i 0; i 0; i 0; i 1; q 969 1000; q 91 4; i 345; i 1; q 53 50; q 47 50];
    [i 64; i 1; i 0; i 0; i 0; i 0; i 1; q 123 125; q 613 25; i 345; i 1; q 53 50; q 47 50];
    [i 65; i 2; i 0; i 0; i 0; i 0; i 1; q 201 200; q 553 20; i 345; i 1; q 53 50; q 47 50];
    [i 66; i 2; i 39; i 18; i 0; i 0; i 1; q 21 20; q 687 25; i 138; i 1; q 53 50; q 47 50];
    [i 67; i 1; i 28; i 7; i 0; i 0; i 1; q 51 50; q 621 25; i 138; i 1; q 53 50; q 47 50];
    [i 68; i 1; i 0; i 0; i 0; i 0; i 1; q 1003 1000; q 551 20; i 345; i 1; q 53 50; q 47 50];
    [i 69; i 3; i 0; i 0; i 0; i 0; i 1; q 207 200; i 30; i 138; i 1; q 53 50; q 47 50];
    [i 70; i 2; i 66; i 20; i 0; i 0; i 1; q 123 125; q 1129 50; i 138; i 1; q 53 50; q 47 50];
    [i 71; i 1; i 0; i 0; i 0; i 0; i 1; q 987 1000; q 443 20; i 138; i 1; q 53 50; q 47 50];
    [i 72; i 2; i 12; i 0; i 0; i 0; i 1; q 49 50; q 1049 50; i 138; i 1; q 53 50; q 47 50];
    [i 73; i 2; i 6; i 0; i 0; i 0; i 1; q 991 1000; q 1097 50; i 138; i 1; q 53 50; q 47 50];
    [i 74; i 2; i 68; i 27; i 0; i 12; i 1; q 479 500; q 541 25; i 138; i 1; q 53 50; q 47 50];
    [i 75; i 1; i 47; i 11; i 0; i 0; i 1; q 967 1000; q 2291 100; i 138; i 1; q 53 50; q 47 50];
    [i 76; i 2; i 68; i 36; i 0; i 0; i 1; q 943 1000; q 2177 100; i 138; i 1; q 53 50; q 47 50];
    [i 77; i 2; i 61; i 28; i 0; i 0; i 1; q 503 500; q 668 25; i 138; i 1; q 53 50; q 47 50];
    [i 78; i 1; i 71; i 26; i 0; i 0; i 1; q 1003 1000; q 1321 50; i 138; i 1; q 53 50; q 47 50];
    [i 79; i 1; i 39; i 32; i 0; i 20; i 1; q 1009 1000; q 668 25; i 138; i 1; q 53 50; q 47 50];
    [i 80; i 2; i 130; i 26; i 0; i 0; i 1; q 26 25; q 724 25; i 138; i 1; q 53 50; q 47 50];
    [i 81; i 1; i 0; i 0; i 0; i 0; i 1; q 997 1000; q 281 10; i 345; i 1; q 53 50; q 47 50];
    [i 82; i 1; i 54; i 27; i 0; i 20; i 1; q 989 1000; q 681 25; i 138; i 1; q 53 50; q 47 50];
    [i 83; i 1; i 20; i 10; i 0; i 10; i 1; q 197 200; q 1421 50; i 138; i 1; q 53 50; q 47 50];
    [i 84; i 1; i 11; i 7; i 0; i 0; i 1; q 49 50; q 619 20; i 138; i 1; q 53 50; q 47 50];
    [i 85; i 2; i 24; i 15; i 0; i 0; i 1; q 197 200; q 3251 100; i 138; i 1; q 53 50; q 47 50];
    [i 86; i 1; i 21; i 10; i 0; i 0; i 1; q 987 1000; q 1557 50; i 138; i 1; q 53 50; q 47 50];
    [i 87; i 2; i 0; i 0; i 0; i 0; i 1; q 203 200; q 157 5; i 161; i 1; q 53 50; q 47 50];
    [i 88; i 1; i 48; i 10; i 0; i 0; i 1; q 987 1000; q 891 25; i 138; i 1; q 53 50; q 47 50];
    [i 89; i 2; i 0; i 0; i 0; i 0; i 1; q 201 200; q 3969 100; i 138; i 1; q 53 50; q 47 50];
    [i 90; i 2; i 163; i 42; i 0; i 0; i 1; q 197 200; q 3329 100; i 138; i 1; q 53 50; q 47 50];
    [i 91; i 2; i 10; i 0; i 0; i 0; i 1; q 49 50; q 3331 100; i 138; i 1; q 53 50; q 47 50];
    [i 92; i 2; i 65; i 10; i 0; i 0; i 1; q 993 1000; q 169 5; i 138; i 1; q 53 50; q 47 50];
    [i 93; i 1; i 12; i 7; i 0; i 0; i 1; q 987 1000; q 3079 100; i 138; i 1; q 53 50; q 47 50];
    [i 94; i 1; i 30; i 16; i 0; i 0; i 1; q 991 1000; q 716 25; i 138; i 1; q 53 50; q 47 50];
    [i 95; i 1; i 42; i 31; i 0; i 0; i 1; q 981 1000; q 2767 100; i 138; i 1; q 53 50; q 47 50];
    [i 96; i 1; i 38; i 15; i 0; i 0; i 1; q 993 1000; q 2751 100; i 138; i 1; q 53 50; q 47 50];
    [i 97; i 1; i 15; i 9; i 0; i 0; i 1; q 1011 1000; q 697 25; i 138; i 1; q 53 50; q 47 50];
    [i 98; i 1; i 34; i 8; i 0; i 0; i 1; q 128 125; q 137 5; i 138; i 1; q 53 50; q 47 50];
    [i 99; i 2; i 42; i 0; i 0; i 0; i 1; q 101 100; q 676 25; i 138; i 1; q 53 50; q 47 50];
    [i 100; i 2; i 37; i 18; i 0; i 0; i 1; q 1017 1000; q 2803 100; i 138; i 1; q 53 50; q 47 50];
    [i 101; i 1; i 22; i 15; i 0; i 0; i 1; q 993 1000; q 2961 100; i 138; i 1; q 53 50; q 47 50];
    [i 102; i 1; i 5; i 3; i 0; i 0; i 1; q 991 1000; q 323 10; i 138; i 1; q 53 50; q 47 50];
    [i 103; i 2; i 23; i 16; i 0; i 0; i 1; q 1001 1000; q 611 25; i 138; i 1; q 53 50; q 47 50];
    [i 104; i 2; i 38; i 25; i 0; i 0; i 1; q 971 1000; q 2169 100; i 138; i 1; q 53 50; q 47 50];
    [i 105; i 2; i 31; i 26; i 0; i 20; i 1; q 193 200; q 2057 100; i 138; i 1; q 53 50; q 47 50];
    [i 106; i 1; i 43; i 16; i 0; i 0; i 1; q 481 500; q 508 25; i 138; i 1; q 53 50; q 47 50];
    [i 107; i 2; i 50; i 12; i 0; i 6; i 1; q 119 125; q 1753 100; i 138; i 1; q 53 50; q 47 50];
    [i 108; i 1; i 2; i 1; i 0; i 0; i 1; q 967 1000; q 969 50; i 138; i 1; q 53 50; q 47 50];
    [i 109; i 1; i 8; i 3; i 0; i 0; i 1; q 967 1000; q 1893 100; i 138; i 1; q 53 50; q 47 50];
    [i 110; i 2; i 39; i 30; i 0; i 6; i 1; q 973 1000; q 1809 100; i 138; i 1; q 53 50; q 47 50];
    [i 111; i 2; i 0; i 0; i 0; i 0; i 1; q 49 50; q 987 50; i 138; i 1; q 53 50; q 47 50];
    [i 112; i 2; i 68; i 13; i 0; i 0; i 1; q 39 40; q 1499 100; i 138; i 1; q 53 50; q 47 50];
    [i 113; i 2; i 6; i 0; i 0; i 0; i 1; q 993 1000; q 687 50; i 138; i 1; q 53 50; q 47 50];
    [i 114; i 1; i 8; i 3; i 0; i 0; i 1; q 24 25; q 723 50; i 138; i 1; q 53 50; q 47 50];
    [i 115; i 1; i 22; i 7; i 0; i 0; i 1; q 24 25; q 723 50; i 138; i 1; q 53 50; q 47 50];
    [i 116; i 2; i 184; i 0; i 0; i 0; i 1; q 201 200; q 678 25; i 138; i 1; q 53 50; q 47 50];
    [i 117; i 1; i 20; i 8; i 0; i 0; i 1; q 487 500; q 1067 100; i 138; i 1; q 53 50; q 47 50];
    [i 118; i 1; i 33; i 15; i 0; i 0; i 1; q 949 1000; q 548 25; i 138; i 1; q 53 50; q 47 50]]
   [[i 1; i 0; i 0; i 15; i (-5); q 191 200; i 100; i 1; i 100; i 0; i 0; i 0; i 0; i 0; i 0; i 0; i 0; i 0; i 0; i 0; i 0];
    [i 4; i 0; i 0; i 300; i (-300); q 499 500; i 100; i 1; i 100; i 0; i 0; i 0; i 0; i 0; i 0; i 0; i 0; i 0; i 0; i 0; i 0];
    [i 6; i 0; i 0; i 50; i (-13); q 99 100; i 100; i 1; i 100; i 0; i 0; i 0; i 0; i 0; i 0; i 0; i 0; i 0; i 0; i 0; i 0];
    [i 8; i 0; i 0; i 300; i (-300); q 203 200; i 100; i 1; i 100; i 0; i 0; i 0; i 0; i 0; i 0; i 0; i 0; i 0; i 0; i 0; i 0];
    [i 10; i 450; i 0; i 200; i (-147); q 21 20; i 100; i 1; i 550; i 0; i 0; i 0; i 0; i 0; i 0; i 0; i 0; i 0; i 0; i 0; i 0];
    [i 12; i 85; i 0; i 120; i (-35); q 99 100; i 100; i 1; i 185; i 0; i 0; i 0; i 0; i 0; i 0; i 0; i 0; i 0; i 0; i 0; i 0];
    [i 15; i 0; i 0; i 30; i (-10); q 97 100; i 100; i 1; i 100; i 0; i 0; i 0; i 0; i 0; i 0; i 0; i 0; i 0; i 0; i 0; i 0];
    [i 18; i 0; i 0; i 50; i (-16); q 973 1000; i 100; i 1; i 100; i 0; i 0; i 0; i 0; i 0; i 0; i 0; i 0; i 0; i 0; i 0; i 0];
    [i 19; i 0; i 0; i 24; i (-8); q 481 500; i 100; i 1; i 100; i 0; i 0; i 0; i 0; i 0; i 0; i 0; i 0; i 0; i 0; i 0; i 0];
    [i 24; i 0; i 0; i 300; i (-300); q 124 125; i 100; i 1; i 100; i 0; i 0; i 0; i 0; i 0; i 0; i 0; i 0; i 0; i 0; i 0; i 0];
    [i 25; i 220; i 0; i 140; i (-47); q 21 20; i 100; i 1; i 320; i 0; i 0; i 0; i 0; i 0; i 0; i 0; i 0; i 0; i 0; i 0; i 0];
    [i 26; i 314; i 0; i 1000; i (-1000); q 203 200; i 100; i 1; i 414; i 0; i 0; i 0; i 0; i 0; i 0; i 0; i 0; i 0; i 0; i 0; i 0];
    [i 27; i 0; i 0; i 300; i (-300); q 121 125; i 100; i 1; i 100; i 0; i 0; i 0; i 0; i 0; i 0; i 0; i 0; i 0; i 0; i 0; i 0];
    [i 31; i 7; i 0; i 300; i (-300); q 967 1000; i 100; i 1; i 107; i 0; i 0; i 0; i 0; i 0; i 0; i 0; i 0; i 0; i 0; i 0; i 0];
    [i 32; i 0; i 0; i 42; i (-14); q 963 1000; i 100; i 1; i 100; i 0; i 0; i 0; i 0; i 0; i 0; i 0; i 0; i 0; i 0; i 0; i 0];
    [i 34; i 0; i 0; i 24; i (-8); q 123 125; i 100; i 1; i 100; i 0; i 0; i 0; i 0; i 0; i 0; i 0; i 0; i 0; i 0; i 0; i 0];
    [i 36; i 0; i 0; i 24; i (-8); q 49 50; i 100; i 1; i 100; i 0; i 0; i 0; i 0; i 0; i 0; i 0; i 0; i 0; i 0; i 0; i 0];
    [i 40; i 0; i 0; i 300; i (-300); q 97 100; i 100; i 1; i 100; i 0; i 0; i 0; i 0; i 0; i 0; i 0; i 0; i 0; i 0; i 0; i 0];
    [i 42; i 0; i 0; i 300; i (-300); q 197 200; i 100; i 1; i 100; i 0; i 0; i 0; i 0; i 0; i 0; i 0; i 0; i 0; i 0; i 0; i 0];
    [i 46; i 19; i 0; i 100; i (-100); q 201 200; i 100; i 1; i 119; i 0; i 0; i 0; i 0; i 0; i 0; i 0; i 0; i 0; i 0; i 0; i 0];
    [i 49; i 204; i 0; i 210; i (-85); q 41 40; i 100; i 1; i 304; i 0; i 0; i 0; i 0; i 0; i 0; i 0; i 0; i 0; i 0; i 0; i 0];
    [i 54; i 48; i 0; i 300; i (-300); q 191 200; i 100; i 1; i 148; i 0; i 0; i 0; i 0; i 0; i 0; i 0; i 0; i 0; i 0; i 0; i 0];
    [i 55; i 0; i 0; i 23; i (-8); q 119 125; i 100; i 1; i 100; i 0; i 0; i 0; i 0; i 0; i 0; i 0; i 0; i 0; i 0; i 0; i 0];
    [i 56; i 0; i 0; i 15; i (-8); q 477 500; i 100; i 1; i 100; i 0; i 0; i 0; i 0; i 0; i 0; i 0; i 0; i 0; i 0; i 0; i 0];
    [i 59; i 155; i 0; i 180; i (-60); q 197 200; i 100; i 1; i 255; i 0; i 0; i 0; i 0; i 0; i 0; i 0; i 0; i 0; i 0; i 0; i 0];
    [i 61; i 160; i 0; i 300; i (-100); q 199 200; i 100; i 1; i 260; i 0; i 0; i 0; i 0; i 0; i 0; i 0; i 0; i 0; i 0; i 0; i 0];
    [i 62; i 0; i 0; i 20; i (-20); q 499 500; i 100; i 1; i 100; i 0; i 0; i 0; i 0; i 0; i 0; i 0; i 0; i 0; i 0; i 0; i 0];
    [i 65; i 391; i 0; i 200; i (-67); q 201 200; i 100; i 1; i 491; i 0; i 0; i 0; i 0; i 0; i 0; i 0; i 0; i 0; i 0; i 0; i 0];
    [i 66; i 392; i 0; i 200; i (-67); q 21 20; i 100; i 1; i 492; i 0; i 0; i 0; i 0; i 0; i 0; i 0; i 0; i 0; i 0; i 0; i 0];
    [i 69; q 2582 5; i 0; i 300; i (-300); q 207 200; i 100; i 1; q 4026 5; i 0; i 0; i 0; i 0; i 0; i 0; i 0; i 0; i 0; i 0; i 0; i 0];
    [i 70; i 0; i 0; i 32; i (-10); q 123 125; i 100; i 1; i 100; i 0; i 0; i 0; i 0; i 0; i 0; i 0; i 0; i 0; i 0; i 0; i 0];
    [i 72; i 0; i 0; i 100; i (-100); q 49 50; i 100; i 1; i 100; i 0; i 0; i 0; i 0; i 0; i 0; i 0; i 0; i 0; i 0; i 0; i 0];
    [i 73; i 0; i 0; i 100; i (-100); q 991 1000; i 100; i 1; i 100; i 0; i 0; i 0; i 0; i 0; i 0; i 0; i 0; i 0; i 0; i 0; i 0];
    [i 74; i 0; i 0; i 9; i (-6); q 479 500; i 100; i 1; i 100; i 0; i 0; i 0; i 0; i 0; i 0; i 0; i 0; i 0; i 0; i 0; i 0];
    [i 76; i 0; i 0; i 23; i (-8); q 943 1000; i 100; i 1; i 100; i 0; i 0; i 0; i 0; i 0; i 0; i 0; i 0; i 0; i 0; i 0; i 0];
    [i 77; i 0; i 0; i 70; i (-20); q 503 500; i 100; i 1; i 100; i 0; i 0; i 0; i 0; i 0; i 0; i 0; i 0; i 0; i 0; i 0; i 0];
    [i 80; i 477; i 0; i 280; i (-165); q 26 25; i 100; i 1; i 577; i 0; i 0; i 0; i 0; i 0; i 0; i 0; i 0; i 0; i 0; i 0; i 0];
    [i 85; i 0; i 0; i 23; i (-8); q 197 200; i 100; i 1; i 100; i 0; i 0; i 0; i 0; i 0; i 0; i 0; i 0; i 0; i 0; i 0; i 0];
    [i 87; i 4; i 0; i 1000; i (-100); q 203 200; i 100; i 1; i 104; i 0; i 0; i 0; i 0; i 0; i 0; i 0; i 0; i 0; i 0; i 0; i 0];
    [i 89; i 607; i 0; i 300; i (-210); q 201 200; i 100; i 1; i 707; i 0; i 0; i 0; i 0; i 0; i 0; i 0; i 0; i 0; i 0; i 0; i 0];
    [i 90; i 0; i 0; i 300; i (-300); q 197 200; i 100; i 1; i 100; i 0; i 0; i 0; i 0; i 0; i 0; i 0; i 0; i 0; i 0; i 0; i 0];
    [i 91; i 0; i 0; i 100; i (-100); q 49 50; i 100; i 1; i 100; i 0; i 0; i 0; i 0; i 0; i 0; i 0; i 0; i 0; i 0; i 0; i 0];
    [i 92; i 0; i 0; i 9; i (-3); q 99 100; i 100; i 1; i 100; i 0; i 0; i 0; i 0; i 0; i 0; i 0; i 0; i 0; i 0; i 0; i 0];
    [i 99; i 0; i 0; i 100; i (-100); q 101 100; i 100; i 1; i 100; i 0; i 0; i 0; i 0; i 0; i 0; i 0; i 0; i 0; i 0; i 0; i 0];
    [i 100; i 252; i 0; i 155; i (-50); q 1017 1000; i 100; i 1; i 352; i 0; i 0; i 0; i 0; i 0; i 0; i 0; i 0; i 0; i 0; i 0; i 0];
    [i 103; i 40; i 0; i 40; i (-15); q 101 100; i 100; i 1; i 140; i 0; i 0; i 0; i 0; i 0; i 0; i 0; i 0; i 0; i 0; i 0; i 0];
    [i 104; i 0; i 0; i 23; i (-8); q 971 1000; i 100; i 1; i 100; i 0; i 0; i 0; i 0; i 0; i 0; i 0; i 0; i 0; i 0; i 0; i 0];
    [i 105; i 0; i 0; i 23; i (-8); q 193 200; i 100; i 1; i 100; i 0; i 0; i 0; i 0; i 0; i 0; i 0; i 0; i 0; i 0; i 0; i 0];
    [i 107; i 0; i 0; i 200; i (-200); q 119 125; i 100; i 1; i 100; i 0; i 0; i 0; i 0; i 0; i 0; i 0; i 0; i 0; i 0; i 0; i 0];
    [i 110; i 0; i 0; i 23; i (-8); q 973 1000; i 100; i 1; i 100; i 0; i 0; i 0; i 0; i 0; i 0; i 0; i 0; i 0; i 0; i 0; i 0];
    [i 111; i 36; i 0; i 1000; i (-100); q 49 50; i 100; i 1; i 136; i 0; i 0; i 0; i 0; i 0; i 0; i 0; i 0; i 0; i 0; i 0; i 0];
    [i 112; i 0; i 0; i 1000; i (-100); q 39 40; i 100; i 1; i 100; i 0; i 0; i 0; i 0; i 0; i 0; i 0; i 0; i 0; i 0; i 0; i 0];
    [i 113; i 0; i 0; i 200; i (-100); q 993 1000; i 100; i 1; i 100; i 0; i 0; i 0; i 0; i 0; i 0; i 0; i 0; i 0; i 0; i 0; i 0];
    [i 116; i 0; i 0; i 1000; i (-1000); q 201 200; i 100; i 1; i 100; i 0; i 0; i 0; i 0; i 0; i 0; i 0; i 0; i 0; i 0; i 0; i 0]]
   [[i 1; i 2; q 303 10000; q 999 10000; q 127 5000; i 9900; i 0; i 0; i 0; i 0; i 1; i (-360); i 360];
    [i 1; i 3; q 129 10000; q 53 1250; q 541 50000; i 9900; i 0; i 0; i 0; i 0; i 1; i (-360); i 360];
    [i 4; i 5; q 11 6250; q 399 50000; q 21 10000; i 9900; i 0; i 0; i 0; i 0; i 1; i (-360); i 360];
    [i 3; i 5; q 241 10000; q 27 250; q 71 2500; i 9900; i 0; i 0; i 0; i 0; i 1; i (-360); i 360];
    [i 5; i 6; q 119 10000; q 27 500; q 713 50000; i 9900; i 0; i 0; i 0; i 0; i 1; i (-360); i 360];
    [i 6; i 7; q 459 100000; q 13 625; q 11 2000; i 9900; i 0; i 0; i 0; i 0; i 1; i (-360); i 360];
    [i 8; i 9; q 61 25000; q 61 2000; q 581 500; i 9900; i 0; i 0; i 0; i 0; i 1; i (-360); i 360];
    [i 8; i 5; i 0; q 267 10000; i 0; i 9900; i 0; i 0; q 197 200; i 0; i 1; i (-360); i 360];
    [i 9; i 10; q 129 50000; q 161 5000; q 123 100; i 9900; i 0; i 0; i 0; i 0; i 1; i (-360); i 360];
    [i 4; i 11; q 209 10000; q 43 625; q 437 25000; i 9900; i 0; i 0; i 0; i 0; i 1; i (-360); i 360];
    [i 5; i 11; q 203 10000; q 341 5000; q 869 50000; i 9900; i 0; i 0; i 0; i 0; i 1; i (-360); i 360];
    [i 11; i 12; q 119 20000; q 49 2500; q 251 50000; i 9900; i 0; i 0; i 0; i 0; i 1; i (-360); i 360];
    [i 2; i 12; q 187 10000; q 77 1250; q 393 25000; i 9900; i 0; i 0; i 0; i 0; i 1; i (-360); i 360];
    [i 3; i 12; q 121 2500; q 4 25; q 203 5000; i 9900; i 0; i 0; i 0; i 0; i 1; i (-360); i 360];
    [i 7; i 12; q 431 50000; q 17 500; q 437 50000; i 9900; i 0; i 0; i 0; i 0; i 1; i (-360); i 360];
    [i 11; i 13; q 89 4000; q 731 10000; q 469 25000; i 9900; i 0; i 0; i 0; i 0; i 1; i (-360); i 360];
    [i 12; i 14; q 43 2000; q 707 10000; q 227 12500; i 9900; i 0; i 0; i 0; i 0; i 1; i (-360); i 360];
    [i 13; i 15; q 93 1250; q 611 2500; q 1567 25000; i 9900; i 0; i 0; i 0; i 0; i 1; i (-360); i 360];
    [i 14; i 15; q 119 2000; q 39 200; q 251 5000; i 9900; i 0; i 0; i 0; i 0; i 1; i (-360); i 360];
    [i 12; i 16; q 53 2500; q 417 5000; q 107 5000; i 9900; i 0; i 0; i 0; i 0; i 1; i (-360); i 360];
    [i 15; i 17; q 33 2500; q 437 10000; q 111 2500; i 9900; i 0; i 0; i 0; i 0; i 1; i (-360); i 360];
    [i 16; i 17; q 227 5000; q 1801 10000; q 233 5000; i 9900; i 0; i 0; i 0; i 0; i 1; i (-360); i 360];
    [i 17; i 18; q 123 10000; q 101 2000; q 649 50000; i 9900; i 0; i 0; i 0; i 0; i 1; i (-360); i 360];
    [i 18; i 19; q 1119 100000; q 493 10000; q 571 50000; i 9900; i 0; i 0; i 0; i 0; i 1; i (-360); i 360];
    [i 19; i 20; q 63 2500; q 117 1000; q 149 5000; i 9900; i 0; i 0; i 0; i 0; i 1; i (-360); i 360];
    [i 15; i 19; q 3 250; q 197 5000; q 101 10000; i 9900; i 0; i 0; i 0; i 0; i 1; i (-360); i 360];
    [i 20; i 21; q 183 10000; q 849 10000; q 27 1250; i 9900; i 0; i 0; i 0; i 0; i 1; i (-360); i 360];
    [i 21; i 22; q 209 10000; q 97 1000; q 123 5000; i 9900; i 0; i 0; i 0; i 0; i 1; i (-360); i 360];
    [i 22; i 23; q 171 5000; q 159 1000; q 101 2500; i 9900; i 0; i 0; i 0; i 0; i 1; i (-360); i 360];
    [i 23; i 24; q 27 2000; q 123 2500; q 249 5000; i 9900; i 0; i 0; i 0; i 0; i 1; i (-360); i 360];
    [i 23; i 25; q 39 2500; q 2 25; q 54 625; i 9900; i 0; i 0; i 0; i 0; i 1; i (-360); i 360];
    [i 26; i 25; i 0; q 191 5000; i 0; i 9900; i 0; i 0; q 24 25; i 0; i 1; i (-360); i 360];
    [i 25; i 27; q 159 5000; q 163 1000; q 441 2500; i 9900; i 0; i 0; i 0; i 0; i 1; i (-360); i 360];
    [i 27; i 28; q 1913 100000; q 171 2000; q 27 1250; i 9900; i 0; i 0; i 0; i 0; i 1; i (-360); i 360];
    [i 28; i 29; q 237 10000; q 943 10000; q 119 5000; i 9900; i 0; i 0; i 0; i 0; i 1; i (-360); i 360];
    [i 30; i 17; i 0; q 97 2500; i 0; i 9900; i 0; i 0; q 24 25; i 0; i 1; i (-360); i 360];
    [i 8; i 30; q 431 100000; q 63 1250; q 257 500; i 9900; i 0; i 0; i 0; i 0; i 1; i (-360); i 360];
    [i 26; i 30; q 799 100000; q 43 500; q 227 250; i 9900; i 0; i 0; i 0; i 0; i 1; i (-360); i 360];
    [i 17; i 31; q 237 5000; q 1563 10000; q 399 10000; i 9900; i 0; i 0; i 0; i 0; i 1; i (-360); i 360];
    [i 29; i 31; q 27 2500; q 331 10000; q 83 10000; i 9900; i 0; i 0; i 0; i 0; i 1; i (-360); i 360];
    [i 23; i 32; q 317 10000; q 1153 10000; q 1173 10000; i 9900; i 0; i 0; i 0; i 0; i 1; i (-360); i 360];
    [i 31; i 32; q 149 5000; q 197 2000; q 251 10000; i 9900; i 0; i 0; i 0; i 0; i 1; i (-360); i 360];
    [i 27; i 32; q 229 10000; q 151 2000; q 963 50000; i 9900; i 0; i 0; i 0; i 0; i 1; i (-360); i 360];
    [i 15; i 33; q 19 500; q 311 2500; q 1597 50000; i 9900; i 0; i 0; i 0; i 0; i 1; i (-360); i 360];
    [i 19; i 34; q 47 625; q 247 1000; q 79 1250; i 9900; i 0; i 0; i 0; i 0; i 1; i (-360); i 360];
    [i 35; i 36; q 7 3125; q 51 5000; q 67 25000; i 9900; i 0; i 0; i 0; i 0; i 1; i (-360); i 360];
    [i 35; i 37; q 11 1000; q 497 10000; q 659 50000; i 9900; i 0; i 0; i 0; i 0; i 1; i (-360); i 360];
    [i 33; i 37; q 83 2000; q 71 500; q 183 5000; i 9900; i 0; i 0; i 0; i 0; i 1; i (-360); i 360];
    [i 34; i 36; q 871 100000; q 67 2500; q 71 12500; i 9900; i 0; i 0; i 0; i 0; i 1; i (-360); i 360];
    [i 34; i 37; q 8 3125; q 47 5000; q 123 12500; i 9900; i 0; i 0; i 0; i 0; i 1; i (-360); i 360];
    [i 38; i 37; i 0; q 3 80; i 0; i 9900; i 0; i 0; q 187 200; i 0; i 1; i (-360); i 360];
    [i 37; i 39; q 321 10000; q 53 500; q 27 1000; i 9900; i 0; i 0; i 0; i 0; i 1; i (-360); i 360];
    [i 37; i 40; q 593 10000; q 21 125; q 21 500; i 9900; i 0; i 0; i 0; i 0; i 1; i (-360); i 360];
    [i 30; i 38; q 29 6250; q 27 500; q 211 500; i 9900; i 0; i 0; i 0; i 0; i 1; i (-360); i 360];
    [i 39; i 40; q 23 1250; q 121 2000; q 97 6250; i 9900; i 0; i 0; i 0; i 0; i 1; i (-360); i 360];
    [i 40; i 41; q 29 2000; q 487 10000; q 611 50000; i 9900; i 0; i 0; i 0; i 0; i 1; i (-360); i 360];
    [i 40; i 42; q 111 2000; q 183 1000; q 233 5000; i 9900; i 0; i 0; i 0; i 0; i 1; i (-360); i 360];
    [i 41; i 42; q 41 1000; q 27 200; q 43 1250; i 9900; i 0; i 0; i 0; i 0; i 1; i (-360); i 360];
    [i 43; i 44; q 38 625; q 1227 5000; q 1517 25000; i 9900; i 0; i 0; i 0; i 0; i 1; i (-360); i 360];
    [i 34; i 43; q 413 10000; q 1681 10000; q 2113 50000; i 9900; i 0; i 0; i 0; i 0; i 1; i (-360); i 360];
    [i 44; i 45; q 14 625; q 901 10000; q 14 625; i 9900; i 0; i 0; i 0; i 0; i 1; i (-360); i 360];
    [i 45; i 46; q 1 25; q 339 2500; q 83 2500; i 9900; i 0; i 0; i 0; i 0; i 1; i (-360); i 360];
    [i 46; i 47; q 19 500; q 127 1000; q 79 2500; i 9900; i 0; i 0; i 0; i 0; i 1; i (-360); i 360];
    [i 46; i 48; q 601 10000; q 189 1000; q 59 1250; i 9900; i 0; i 0; i 0; i 0; i 1; i (-360); i 360];
    [i 47; i 49; q 191 10000; q 1 16; q 401 25000; i 9900; i 0; i 0; i 0; i 0; i 1; i (-360); i 360];
    [i 42; i 49; q 143 2000; q 323 1000; q 43 500; i 9900; i 0; i 0; i 0; i 0; i 1; i (-360); i 360];
    [i 42; i 49; q 143 2000; q 323 1000; q 43 500; i 9900; i 0; i 0; i 0; i 0; i 1; i (-360); i 360];
    [i 45; i 49; q 171 2500; q 93 500; q 111 2500; i 9900; i 0; i 0; i 0; i 0; i 1; i (-360); i 360];
    [i 48; i 49; q 179 10000; q 101 2000; q 629 50000; i 9900; i 0; i 0; i 0; i 0; i 1; i (-360); i 360];
    [i 49; i 50; q 267 10000; q 47 625; q 937 50000; i 9900; i 0; i 0; i 0; i 0; i 1; i (-360); i 360];
    [i 49; i 51; q 243 5000; q 137 1000; q 171 5000; i 9900; i 0; i 0; i 0; i 0; i 1; i (-360); i 360];
    [i 51; i 52; q 203 10000; q 147 2500; q 349 25000; i 9900; i 0; i 0; i 0; i 0; i 1; i (-360); i 360];
    [i 52; i 53; q 81 2000; q 327 2000; q 2029 50000; i 9900; i 0; i 0; i 0; i 0; i 1; i (-360); i 360];
    [i 53; i 54; q 263 10000; q 61 500; q 31 1000; i 9900; i 0; i 0; i 0; i 0; i 1; i (-360); i 360];
    [i 49; i 54; q 73 1000; q 289 1000; q 369 5000; i 9900; i 0; i 0; i 0; i 0; i 1; i (-360); i 360];
    [i 49; i 54; q 869 10000; q 291 1000; q 73 1000; i 9900; i 0; i 0; i 0; i 0; i 1; i (-360); i 360];
    [i 54; i 55; q 169 10000; q 707 10000; q 101 5000; i 9900; i 0; i 0; i 0; i 0; i 1; i (-360); i 360];
    [i 54; i 56; q 11 4000; q 191 20000; q 183 25000; i 9900; i 0; i 0; i 0; i 0; i 1; i (-360); i 360];
    [i 55; i 56; q 61 12500; q 151 10000; q 187 50000; i 9900; i 0; i 0; i 0; i 0; i 1; i (-360); i 360];
    [i 56; i 57; q 343 10000; q 483 5000; q 121 5000; i 9900; i 0; i 0; i 0; i 0; i 1; i (-360); i 360];
    [i 50; i 57; q 237 5000; q 67 500; q 83 2500; i 9900; i 0; i 0; i 0; i 0; i 1; i (-360); i 360];
    [i 56; i 58; q 343 10000; q 483 5000; q 121 5000; i 9900; i 0; i 0; i 0; i 0; i 1; i (-360); i 360];
    [i 51; i 58; q 51 2000; q 719 10000; q 447 25000; i 9900; i 0; i 0; i 0; i 0; i 1; i (-360); i 360];
    [i 54; i 59; q 503 10000; q 2293 10000; q 299 5000; i 9900; i 0; i 0; i 0; i 0; i 1; i (-360); i 360];
    [i 56; i 59; q 33 400; q 251 1000; q 569 10000; i 9900; i 0; i 0; i 0; i 0; i 1; i (-360); i 360];
    [i 56; i 59; q 803 10000; q 239 1000; q 67 1250; i 9900; i 0; i 0; i 0; i 0; i 1; i (-360); i 360];
    [i 55; i 59; q 4739 100000; q 1079 5000; q 2823 50000; i 9900; i 0; i 0; i 0; i 0; i 1; i (-360); i 360];
    [i 59; i 60; q 317 10000; q 29 200; q 47 1250; i 9900; i 0; i 0; i 0; i 0; i 1; i (-360); i 360];
    [i 59; i 61; q 41 1250; q 3 20; q 97 2500; i 9900; i 0; i 0; i 0; i 0; i 1; i (-360); i 360];
    [i 60; i 61; q 33 12500; q 27 2000; q 91 6250; i 9900; i 0; i 0; i 0; i 0; i 1; i (-360); i 360];
    [i 60; i 62; q 123 10000; q 561 10000; q 367 25000; i 9900; i 0; i 0; i 0; i 0; i 1; i (-360); i 360];
    [i 61; i 62; q 103 12500; q 47 1250; q 49 5000; i 9900; i 0; i 0; i 0; i 0; i 1; i (-360); i 360];
    [i 63; i 59; i 0; q 193 5000; i 0; i 9900; i 0; i 0; q 24 25; i 0; i 1; i (-360); i 360];
    [i 63; i 64; q 43 25000; q 1 50; q 27 125; i 9900; i 0; i 0; i 0; i 0; i 1; i (-360); i 360];
    [i 64; i 61; i 0; q 67 2500; i 0; i 9900; i 0; i 0; q 197 200; i 0; i 1; i (-360); i 360];
    [i 38; i 65; q 901 100000; q 493 5000; q 523 500; i 9900; i 0; i 0; i 0; i 0; i 1; i (-360); i 360];
    [i 64; i 65; q 269 100000; q 151 5000; q 19 50; i 9900; i 0; i 0; i 0; i 0; i 1; i (-360); i 360];
    [i 49; i 66; q 9 500; q 919 10000; q 31 1250; i 9900; i 0; i 0; i 0; i 0; i 1; i (-360); i 360];
    [i 49; i 66; q 9 500; q 919 10000; q 31 1250; i 9900; i 0; i 0; i 0; i 0; i 1; i (-360); i 360];
    [i 62; i 66; q 241 5000; q 109 500; q 289 5000; i 9900; i 0; i 0; i 0; i 0; i 1; i (-360); i 360];
    [i 62; i 67; q 129 5000; q 117 1000; q 31 1000; i 9900; i 0; i 0; i 0; i 0; i 1; i (-360); i 360];
    [i 65; i 66; i 0; q 37 1000; i 0; i 9900; i 0; i 0; q 187 200; i 0; i 1; i (-360); i 360];
    [i 66; i 67; q 14 625; q 203 2000; q 1341 50000; i 9900; i 0; i 0; i 0; i 0; i 1; i (-360); i 360];
    [i 65; i 68; q 69 50000; q 2 125; q 319 500; i 9900; i 0; i 0; i 0; i 0; i 1; i (-360); i 360];
    [i 47; i 69; q 211 2500; q 1389 5000; q 1773 25000; i 9900; i 0; i 0; i 0; i 0; i 1; i (-360); i 360];
    [i 49; i 69; q 197 2000; q 81 250; q 207 2500; i 9900; i 0; i 0; i 0; i 0; i 1; i (-360); i 360];
    [i 68; i 69; i 0; q 37 1000; i 0; i 9900; i 0; i 0; q 187 200; i 0; i 1; i (-360); i 360];
    [i 69; i 70; q 3 100; q 127 1000; q 61 500; i 9900; i 0; i 0; i 0; i 0; i 1; i (-360); i 360];
    [i 24; i 70; q 221 100000; q 823 2000; q 5099 50000; i 9900; i 0; i 0; i 0; i 0; i 1; i (-360); i 360];
    [i 70; i 71; q 441 50000; q 71 2000; q 439 50000; i 9900; i 0; i 0; i 0; i 0; i 1; i (-360); i 360];
    [i 24; i 72; q 61 1250; q 49 250; q 61 1250; i 9900; i 0; i 0; i 0; i 0; i 1; i (-360); i 360];
    [i 71; i 72; q 223 5000; q 9 50; q 1111 25000; i 9900; i 0; i 0; i 0; i 0; i 1; i (-360); i 360];
    [i 71; i 73; q 433 50000; q 227 5000; q 589 50000; i 9900; i 0; i 0; i 0; i 0; i 1; i (-360); i 360];
    [i 70; i 74; q 401 10000; q 1323 10000; q 421 12500; i 9900; i 0; i 0; i 0; i 0; i 1; i (-360); i 360];
    [i 70; i 75; q 107 2500; q 141 1000; q 9 250; i 9900; i 0; i 0; i 0; i 0; i 1; i (-360); i 360];
    [i 69; i 75; q 81 2000; q 61 500; q 31 250; i 9900; i 0; i 0; i 0; i 0; i 1; i (-360); i 360];
    [i 74; i 75; q 123 10000; q 203 5000; q 517 50000; i 9900; i 0; i 0; i 0; i 0; i 1; i (-360); i 360];
    [i 76; i 77; q 111 2500; q 37 250; q 23 625; i 9900; i 0; i 0; i 0; i 0; i 1; i (-360); i 360];
    [i 69; i 77; q 309 10000; q 101 1000; q 519 5000; i 9900; i 0; i 0; i 0; i 0; i 1; i (-360); i 360];
    [i 75; i 77; q 601 10000; q 1999 10000; q 2489 50000; i 9900; i 0; i 0; i 0; i 0; i 1; i (-360); i 360];
    [i 77; i 78; q 47 12500; q 31 2500; q 79 6250; i 9900; i 0; i 0; i 0; i 0; i 1; i (-360); i 360];
    [i 78; i 79; q 273 50000; q 61 2500; q 81 12500; i 9900; i 0; i 0; i 0; i 0; i 1; i (-360); i 360];
    [i 77; i 80; q 17 1000; q 97 2000; q 59 1250; i 9900; i 0; i 0; i 0; i 0; i 1; i (-360); i 360];
    [i 77; i 80; q 147 5000; q 21 200; q 57 2500; i 9900; i 0; i 0; i 0; i 0; i 1; i (-360); i 360];
    [i 79; i 80; q 39 2500; q 44 625; q 187 10000; i 9900; i 0; i 0; i 0; i 0; i 1; i (-360); i 360];
    [i 68; i 81; q 7 4000; q 101 5000; q 101 125; i 9900; i 0; i 0; i 0; i 0; i 1; i (-360); i 360];
    [i 81; i 80; i 0; q 37 1000; i 0; i 9900; i 0; i 0; q 187 200; i 0; i 1; i (-360); i 360];
    [i 77; i 82; q 149 5000; q 853 10000; q 4087 50000; i 9900; i 0; i 0; i 0; i 0; i 1; i (-360); i 360];
    [i 82; i 83; q 7 625; q 733 20000; q 949 25000; i 9900; i 0; i 0; i 0; i 0; i 1; i (-360); i 360];
    [i 83; i 84; q 1 16; q 33 250; q 129 5000; i 9900; i 0; i 0; i 0; i 0; i 1; i (-360); i 360];
    [i 83; i 85; q 43 1000; q 37 250; q 87 2500; i 9900; i 0; i 0; i 0; i 0; i 1; i (-360); i 360];
    [i 84; i 85; q 151 5000; q 641 10000; q 617 50000; i 9900; i 0; i 0; i 0; i 0; i 1; i (-360); i 360];
    [i 85; i 86; q 7 200; q 123 1000; q 69 2500; i 9900; i 0; i 0; i 0; i 0; i 1; i (-360); i 360];
    [i 86; i 87; q 707 25000; q 1037 5000; q 89 2000; i 9900; i 0; i 0; i 0; i 0; i 1; i (-360); i 360];
    [i 85; i 88; q 1 50; q 51 500; q 69 2500; i 9900; i 0; i 0; i 0; i 0; i 1; i (-360); i 360];
    [i 85; i 89; q 239 10000; q 173 1000; q 47 1000; i 9900; i 0; i 0; i 0; i 0; i 1; i (-360); i 360];
    [i 88; i 89; q 139 10000; q 89 1250; q 967 50000; i 9900; i 0; i 0; i 0; i 0; i 1; i (-360); i 360];
    [i 89; i 90; q 259 5000; q 47 250; q 33 625; i 9900; i 0; i 0; i 0; i 0; i 1; i (-360); i 360];
    [i 89; i 90; q 119 5000; q 997 10000; q 53 500; i 9900; i 0; i 0; i 0; i 0; i 1; i (-360); i 360];
    [i 90; i 91; q 127 5000; q 209 2500; q 107 5000; i 9900; i 0; i 0; i 0; i 0; i 1; i (-360); i 360];
    [i 89; i 92; q 99 10000; q 101 2000; q 137 2500; i 9900; i 0; i 0; i 0; i 0; i 1; i (-360); i 360];
    [i 89; i 92; q 393 10000; q 1581 10000; q 207 5000; i 9900; i 0; i 0; i 0; i 0; i 1; i (-360); i 360];
    [i 91; i 92; q 387 10000; q 159 1250; q 817 25000; i 9900; i 0; i 0; i 0; i 0; i 1; i (-360); i 360];
    [i 92; i 93; q 129 5000; q 53 625; q 109 5000; i 9900; i 0; i 0; i 0; i 0; i 1; i (-360); i 360];
    [i 92; i 94; q 481 10000; q 79 500; q 203 5000; i 9900; i 0; i 0; i 0; i 0; i 1; i (-360); i 360];
    [i 93; i 94; q 223 10000; q 183 2500; q 469 25000; i 9900; i 0; i 0; i 0; i 0; i 1; i (-360); i 360];
    [i 94; i 95; q 33 2500; q 217 5000; q 111 10000; i 9900; i 0; i 0; i 0; i 0; i 1; i (-360); i 360];
    [i 80; i 96; q 89 2500; q 91 500; q 247 5000; i 9900; i 0; i 0; i 0; i 0; i 1; i (-360); i 360];
    [i 82; i 96; q 81 5000; q 53 1000; q 34 625; i 9900; i 0; i 0; i 0; i 0; i 1; i (-360); i 360];
    [i 94; i 96; q 269 10000; q 869 10000; q 23 1000; i 9900; i 0; i 0; i 0; i 0; i 1; i (-360); i 360];
    [i 80; i 97; q 183 10000; q 467 5000; q 127 5000; i 9900; i 0; i 0; i 0; i 0; i 1; i (-360); i 360];
    [i 80; i 98; q 119 5000; q 27 250; q 143 5000; i 9900; i 0; i 0; i 0; i 0; i 1; i (-360); i 360];
    [i 80; i 99; q 227 5000; q 103 500; q 273 5000; i 9900; i 0; i 0; i 0; i 0; i 1; i (-360); i 360];
    [i 92; i 100; q 81 1250; q 59 200; q 59 1250; i 9900; i 0; i 0; i 0; i 0; i 1; i (-360); i 360];
    [i 94; i 100; q 89 5000; q 29 500; q 151 2500; i 9900; i 0; i 0; i 0; i 0; i 1; i (-360); i 360];
    [i 95; i 96; q 171 10000; q 547 10000; q 737 50000; i 9900; i 0; i 0; i 0; i 0; i 1; i (-360); i 360];
    [i 96; i 97; q 173 10000; q 177 2000; q 3 125; i 9900; i 0; i 0; i 0; i 0; i 1; i (-360); i 360];
    [i 98; i 100; q 397 10000; q 179 1000; q 119 2500; i 9900; i 0; i 0; i 0; i 0; i 1; i (-360); i 360];
    [i 99; i 100; q 9 500; q 813 10000; q 27 1250; i 9900; i 0; i 0; i 0; i 0; i 1; i (-360); i 360];
    [i 100; i 101; q 277 10000; q 631 5000; q 41 1250; i 9900; i 0; i 0; i 0; i 0; i 1; i (-360); i 360];
    [i 92; i 102; q 123 10000; q 559 10000; q 183 12500; i 9900; i 0; i 0; i 0; i 0; i 1; i (-360); i 360];
    [i 101; i 102; q 123 5000; q 14 125; q 147 5000; i 9900; i 0; i 0; i 0; i 0; i 1; i (-360); i 360];
    [i 100; i 103; q 2 125; q 21 400; q 67 1250; i 9900; i 0; i 0; i 0; i 0; i 1; i (-360); i 360];
    [i 100; i 104; q 451 10000; q 51 250; q 541 10000; i 9900; i 0; i 0; i 0; i 0; i 1; i (-360); i 360];
    [i 103; i 104; q 233 5000; q 99 625; q 407 10000; i 9900; i 0; i 0; i 0; i 0; i 1; i (-360); i 360];
    [i 103; i 105; q 107 2000; q 13 80; q 51 1250; i 9900; i 0; i 0; i 0; i 0; i 1; i (-360); i 360];
    [i 100; i 106; q 121 2000; q 229 1000; q 31 500; i 9900; i 0; i 0; i 0; i 0; i 1; i (-360); i 360];
    [i 104; i 105; q 497 50000; q 189 5000; q 493 50000; i 9900; i 0; i 0; i 0; i 0; i 1; i (-360); i 360];
    [i 105; i 106; q 7 500; q 547 10000; q 717 50000; i 9900; i 0; i 0; i 0; i 0; i 1; i (-360); i 360];
    [i 105; i 107; q 53 1000; q 183 1000; q 59 1250; i 9900; i 0; i 0; i 0; i 0; i 1; i (-360); i 360];
    [i 105; i 108; q 261 10000; q 703 10000; q 461 25000; i 9900; i 0; i 0; i 0; i 0; i 1; i (-360); i 360];
    [i 106; i 107; q 53 1000; q 183 1000; q 59 1250; i 9900; i 0; i 0; i 0; i 0; i 1; i (-360); i 360];
    [i 108; i 109; q 21 2000; q 18 625; q 19 2500; i 9900; i 0; i 0; i 0; i 0; i 1; i (-360); i 360];
    [i 103; i 110; q 1953 50000; q 1813 10000; q 461 10000; i 9900; i 0; i 0; i 0; i 0; i 1; i (-360); i 360];
    [i 109; i 110; q 139 5000; q 381 5000; q 101 5000; i 9900; i 0; i 0; i 0; i 0; i 1; i (-360); i 360];
    [i 110; i 111; q 11 500; q 151 2000; q 1 50; i 9900; i 0; i 0; i 0; i 0; i 1; i (-360); i 360];
    [i 110; i 112; q 247 10000; q 8 125; q 31 500; i 9900; i 0; i 0; i 0; i 0; i 1; i (-360); i 360];
    [i 17; i 113; q 913 100000; q 301 10000; q 24 3125; i 9900; i 0; i 0; i 0; i 0; i 1; i (-360); i 360];
    [i 32; i 113; q 123 2000; q 203 1000; q 259 5000; i 9900; i 0; i 0; i 0; i 0; i 1; i (-360); i 360];
    [i 32; i 114; q 27 2000; q 153 2500; q 407 25000; i 9900; i 0; i 0; i 0; i 0; i 1; i (-360); i 360];
    [i 27; i 115; q 41 2500; q 741 10000; q 493 25000; i 9900; i 0; i 0; i 0; i 0; i 1; i (-360); i 360];
    [i 114; i 115; q 23 10000; q 13 1250; q 69 25000; i 9900; i 0; i 0; i 0; i 0; i 1; i (-360); i 360];
    [i 68; i 116; q 17 50000; q 81 20000; q 41 250; i 9900; i 0; i 0; i 0; i 0; i 1; i (-360); i 360];
    [i 12; i 117; q 329 10000; q 7 50; q 179 5000; i 9900; i 0; i 0; i 0; i 0; i 1; i (-360); i 360];
    [i 75; i 118; q 29 2000; q 481 10000; q 599 50000; i 9900; i 0; i 0; i 0; i 0; i 1; i (-360); i 360];
    [i 76; i 118; q 41 2500; q 34 625; q 339 25000; i 9900; i 0; i 0; i 0; i 0; i 1; i (-360); i 360]]
   (None)
   (Some
   [[i 2; i 0; i 0; i 3; q 1 100; i 40; i 0];
    [i 2; i 0; i 0; i 3; q 1 100; i 40; i 0];
    [i 2; i 0; i 0; i 3; q 1 100; i 40; i 0];
    [i 2; i 0; i 0; i 3; q 1 100; i 40; i 0];
    [i 2; i 0; i 0; i 3; q 111111 5000000; i 20; i 0];
    [i 2; i 0; i 0; i 3; q 117647 1000000; i 20; i 0];
    [i 2; i 0; i 0; i 3; q 1 100; i 40; i 0];
    [i 2; i 0; i 0; i 3; q 1 100; i 40; i 0];
    [i 2; i 0; i 0; i 3; q 1 100; i 40; i 0];
    [i 2; i 0; i 0; i 3; q 1 100; i 40; i 0];
    [i 2; i 0; i 0; i 3; q 90909 2000000; i 20; i 0];
    [i 2; i 0; i 0; i 3; q 318471 10000000; i 20; i 0];
    [i 2; i 0; i 0; i 3; q 1 100; i 40; i 0];
    [i 2; i 0; i 0; i 3; q 142857 100000; i 20; i 0];
    [i 2; i 0; i 0; i 3; q 1 100; i 40; i 0];
    [i 2; i 0; i 0; i 3; q 1 100; i 40; i 0];
    [i 2; i 0; i 0; i 3; q 1 100; i 40; i 0];
    [i 2; i 0; i 0; i 3; q 1 100; i 40; i 0];
    [i 2; i 0; i 0; i 3; q 1 100; i 40; i 0];
    [i 2; i 0; i 0; i 3; q 131579 250000; i 20; i 0];
    [i 2; i 0; i 0; i 3; q 122549 2500000; i 20; i 0];
    [i 2; i 0; i 0; i 3; q 208333 1000000; i 20; i 0];
    [i 2; i 0; i 0; i 3; q 1 100; i 40; i 0];
    [i 2; i 0; i 0; i 3; q 1 100; i 40; i 0];
    [i 2; i 0; i 0; i 3; q 645161 10000000; i 20; i 0];
    [i 2; i 0; i 0; i 3; q 1 16; i 20; i 0];
    [i 2; i 0; i 0; i 3; q 1 100; i 40; i 0];
    [i 2; i 0; i 0; i 3; q 127877 5000000; i 20; i 0];
    [i 2; i 0; i 0; i 3; q 127551 5000000; i 20; i 0];
    [i 2; i 0; i 0; i 3; q 12103 625000; i 20; i 0];
    [i 2; i 0; i 0; i 3; q 1 100; i 40; i 0];
    [i 2; i 0; i 0; i 3; q 1 100; i 40; i 0];
    [i 2; i 0; i 0; i 3; q 1 100; i 40; i 0];
    [i 2; i 0; i 0; i 3; q 1 100; i 40; i 0];
    [i 2; i 0; i 0; i 3; q 1 100; i 40; i 0];
    [i 2; i 0; i 0; i 3; q 1 100; i 40; i 0];
    [i 2; i 0; i 0; i 3; q 52411 2500000; i 20; i 0];
    [i 2; i 0; i 0; i 3; q 1 100; i 40; i 0];
    [i 2; i 0; i 0; i 3; q 5 2; i 20; i 0];
    [i 2; i 0; i 0; i 3; q 32949 2000000; i 20; i 0];
    [i 2; i 0; i 0; i 3; q 1 100; i 40; i 0];
    [i 2; i 0; i 0; i 3; q 1 100; i 40; i 0];
    [i 2; i 0; i 0; i 3; q 1 100; i 40; i 0];
    [i 2; i 0; i 0; i 3; q 1 100; i 40; i 0];
    [i 2; i 0; i 0; i 3; q 15873 400000; i 20; i 0];
    [i 2; i 0; i 0; i 3; q 1 4; i 20; i 0];
    [i 2; i 0; i 0; i 3; q 1 100; i 40; i 0];
    [i 2; i 0; i 0; i 3; q 1 100; i 40; i 0];
    [i 2; i 0; i 0; i 3; q 1 100; i 40; i 0];
    [i 2; i 0; i 0; i 3; q 1 100; i 40; i 0];
    [i 2; i 0; i 0; i 3; q 138889 500000; i 20; i 0];
    [i 2; i 0; i 0; i 3; q 1 100; i 40; i 0];
    [i 2; i 0; i 0; i 3; q 1 100; i 40; i 0];
    [i 2; i 0; i 0; i 3; q 1 100; i 40; i 0]]).

(** pypower/case300.py *)
Definition case300 : bundle := Bundle "case300" 100
   [[i 1; i 1; i 90; i 49; i 0; i 0; i 1; q 2571 2500; q 119 20; i 115; i 1; q 53 50; q 47 50];
    [i 2; i 1; i 56; i 15; i 0; i 0; i 1; q 5177 5000; q 387 50; i 115; i 1; q 53 50; q 47 50];
    [i 3; i 1; i 20; i 0; i 0; i 0; i 1; q 9971 10000; q 166 25; i 230; i 1; q 53 50; q 47 50];
    [i 4; i 1; i 0; i 0; i 0; i 0; i 1; q 2577 2500; q 471 100; i 345; i 1; q 53 50; q 47 50];
    [i 5; i 1; i 353; i 130; i 0; i 0; i 1; q 10191 10000; q 117 25; i 115; i 1; q 53 50; q 47 50];
    [i 6; i 1; i 120; i 41; i 0; i 0; i 1; q 1289 1250; q 699 100; i 115; i 1; q 53 50; q 47 50];
    [i 7; i 1; i 0; i 0; i 0; i 0; i 1; q 4967 5000; q 619 100; i 230; i 1; q 53 50; q 47 50];
    [i 8; i 2; i 63; i 14; i 0; i 0; i 1; q 10153 10000; q 12 5; i 115; i 1; q 53 50; q 47 50];
    [i 9; i 1; i 96; i 43; i 0; i 0; i 1; q 5017 5000; q 57 20; i 115; i 1; q 53 50; q 47 50];
    [i 10; i 2; i 153; i 33; i 0; i 0; i 1; q 2041 2000; q 27 20; i 230; i 1; q 53 50; q 47 50];
    [i 11; i 1; i 83; i 21; i 0; i 0; i 1; q 10057 10000; q 123 50; i 115; i 1; q 53 50; q 47 50];
    [i 12; i 1; i 0; i 0; i 0; i 0; i 1; q 4987 5000; q 521 100; i 230; i 1; q 53 50; q 47 50];
    [i 13; i 1; i 58; i 10; i 0; i 0; i 1; q 9977 10000; q (-11) 20; i 115; i 1; q 53 50; q 47 50];
    [i 14; i 1; i 160; i 60; i 0; i 0; i 1; q 9991 10000; q (-481) 100; i 115; i 1; q 53 50; q 47 50];
    [i 15; i 1; q 1267 10; i 23; i 0; i 0; i 1; q 10343 10000; q (-859) 100; i 115; i 1; q 53 50; q 47 50];
    [i 16; i 1; i 0; i 0; i 0; i 0; i 1; q 2063 2000; q (-53) 20; i 345; i 1; q 53 50; q 47 50];
    [i 17; i 1; i 561; i 220; i 0; i 0; i 1; q 10649 10000; q (-131) 10; i 115; i 1; q 53 50; q 47 50];
    [i 19; i 1; i 0; i 0; i 0; i 0; i 1; q 491 500; q 27 25; i 230; i 1; q 53 50; q 47 50];
    [i 20; i 2; i 605; i 120; i 0; i 0; i 1; q 1001 1000; q (-123) 50; i 115; i 1; q 53 50; q 47 50];
    [i 21; i 1; i 77; i 1; i 0; i 0; i 1; q 1219 1250; q 81 50; i 230; i 1; q 53 50; q 47 50];
    [i 22; i 1; i 81; i 23; i 0; i 0; i 1; q 9963 10000; q (-197) 100; i 115; i 1; q 53 50; q 47 50];
    [i 23; i 1; i 21; i 7; i 0; i 0; i 1; q 10501 10000; q 197 50; i 115; i 1; q 53 50; q 47 50];
    [i 24; i 1; i 0; i 0; i 0; i 0; i 1; q 10057 10000; q 301 50; i 230; i 1; q 53 50; q 47 50];
    [i 25; i 1; i 45; i 12; i 0; i 0; i 1; q 5117 5000; q 36 25; i 115; i 1; q 53 50; q 47 50];
    [i 26; i 1; i 28; i 9; i 0; i 0; i 1; q 4993 5000; q (-173) 100; i 115; i 1; q 53 50; q 47 50];
    [i 27; i 1; i 69; i 13; i 0; i 0; i 1; q 39 40; q (-49) 10; i 115; i 1; q 53 50; q 47 50];
    [i 33; i 1; i 55; i 6; i 0; i 0; i 1; q 2561 2500; q (-601) 50; i 115; i 1; q 53 50; q 47 50];
    [i 34; i 1; i 0; i 0; i 0; i 0; i 1; q 5207 5000; q (-397) 50; i 345; i 1; q 53 50; q 47 50];
    [i 35; i 1; i 0; i 0; i 0; i 0; i 1; q 9757 10000; q (-643) 25; i 115; i 1; q 53 50; q 47 50];
    [i 36; i 1; i 0; i 0; i 0; i 0; i 1; q 10011 10000; q (-2259) 100; i 230; i 1; q 53 50; q 47 50];
    [i 37; i 1; i 85; i 32; i 0; i 0; i 1; q 10201 10000; q (-1123) 100; i 115; i 1; q 53 50; q 47 50];
    [i 38; i 1; i 155; i 18; i 0; i 0; i 1; q 5101 5000; q (-314) 25; i 115; i 1; q 53 50; q 47 50];
    [i 39; i 1; i 0; i 0; i 0; i 0; i 1; q 2107 2000; q (-581) 100; i 345; i 1; q 53 50; q 47 50];
    [i 40; i 1; i 46; i (-21); i 0; i 0; i 1; q 1277 1250; q (-639) 50; i 115; i 1; q 53 50; q 47 50];
    [i 41; i 1; i 86; i 0; i 0; i 0; i 1; q 2573 2500; q (-209) 20; i 115; i 1; q 53 50; q 47 50];
    [i 42; i 1; i 0; i 0; i 0; i 0; i 1; q 653 625; q (-186) 25; i 345; i 1; q 53 50; q 47 50];
    [i 43; i 1; i 39; i 9; i 0; i 0; i 1; q 5003 5000; q (-1679) 100; i 115; i 1; q 53 50; q 47 50];
    [i 44; i 1; i 195; i 29; i 0; i 0; i 1; q 5043 5000; q (-1747) 100; i 115; i 1; q 53 50; q 47 50];
    [i 45; i 1; i 0; i 0; i 0; i 0; i 1; q 2043 2000; q (-737) 50; i 230; i 1; q 53 50; q 47 50];
    [i 46; i 1; i 0; i 0; i 0; i 0; i 1; q 1293 1250; q (-47) 4; i 345; i 1; q 53 50; q 47 50];
    [i 47; i 1; i 58; q 59 5; i 0; i 0; i 1; q 9777 10000; q (-2317) 100; i 115; i 1; q 53 50; q 47 50];
    [i 48; i 1; i 41; i 19; i 0; i 0; i 1; q 10019 10000; q (-1609) 100; i 115; i 1; q 53 50; q 47 50];
    [i 49; i 1; i 92; i 26; i 0; i 0; i 1; q 419 400; q (-59) 20; i 115; i 1; q 53 50; q 47 50];
    [i 51; i 1; i (-5); i 5; i 0; i 0; i 1; q 10253 10000; q (-163) 20; i 115; i 1; q 53 50; q 47 50];
    [i 52; i 1; i 61; i 28; i 0; i 0; i 1; q 9979 10000; q (-593) 50; i 115; i 1; q 53 50; q 47 50];
    [i 53; i 1; i 69; i 3; i 0; i 0; i 1; q 9959 10000; q (-88) 5; i 115; i 1; q 53 50; q 47 50];
    [i 54; i 1; i 10; i 1; i 0; i 0; i 1; q 201 200; q (-65) 4; i 115; i 1; q 53 50; q 47 50];
    [i 55; i 1; i 22; i 10; i 0; i 0; i 1; q 203 200; q (-1221) 100; i 115; i 1; q 53 50; q 47 50];
    [i 57; i 1; i 98; i 20; i 0; i 0; i 1; q 2067 2000; i (-8); i 115; i 1; q 53 50; q 47 50];
    [i 58; i 1; i 14; i 1; i 0; i 0; i 1; q 4959 5000; q (-599) 100; i 115; i 1; q 53 50; q 47 50];
    [i 59; i 1; i 218; i 106; i 0; i 0; i 1; q 9789 10000; q (-529) 100; i 115; i 1; q 53 50; q 47 50];
    [i 60; i 1; i 0; i 0; i 0; i 0; i 1; q 5123 5000; q (-239) 25; i 230; i 1; q 53 50; q 47 50];
    [i 61; i 1; i 227; i 110; i 0; i 0; i 1; q 4953 5000; q (-347) 100; i 115; i 1; q 53 50; q 47 50];
    [i 62; i 1; i 0; i 0; i 0; i 0; i 1; q 127 125; q (-11) 10; i 230; i 1; q 53 50; q 47 50];
    [i 63; i 2; i 70; i 30; i 0; i 0; i 1; q 9583 10000; q (-881) 50; i 115; i 1; q 53 50; q 47 50];
    [i 64; i 1; i 0; i 0; i 0; i 0; i 1; q 237 250; q (-1297) 100; i 230; i 1; q 53 50; q 47 50];
    [i 69; i 1; i 0; i 0; i 0; i 0; i 1; q 963 1000; q (-1283) 50; i 115; i 1; q 53 50; q 47 50];
    [i 70; i 1; i 56; i 20; i 0; i 0; i 1; q 9513 10000; q (-879) 25; i 115; i 1; q 53 50; q 47 50];
    [i 71; i 1; i 116; i 38; i 0; i 0; i 1; q 9793 10000; q (-747) 25; i 115; i 1; q 53 50; q 47 50];
    [i 72; i 1; i 57; i 19; i 0; i 0; i 1; q 606 625; q (-687) 25; i 115; i 1; q 53 50; q 47 50];
    [i 73; i 1; i 224; i 71; i 0; i 0; i 1; q 391 400; q (-2577) 100; i 115; i 1; q 53 50; q 47 50];
    [i 74; i 1; i 0; i 0; i 0; i 0; i 1; q 2491 2500; i (-22); i 230; i 1; q 53 50; q 47 50];
    [i 76; i 2; i 208; i 107; i 0; i 0; i 1; q 602 625; q (-1327) 50; i 115; i 1; q 53 50; q 47 50];
    [i 77; i 1; i 74; i 28; i 0; i 0; i 1; q 9837 10000; q (-1247) 50; i 115; i 1; q 53 50; q 47 50];
    [i 78; i 1; i 0; i 0; i 0; i 0; i 1; q 99 100; q (-481) 20; i 115; i 1; q 53 50; q 47 50];
    [i 79; i 1; i 48; i 14; i 0; i 0; i 1; q 491 500; q (-2497) 100; i 115; i 1; q 53 50; q 47 50];
    [i 80; i 1; i 28; i 7; i 0; i 0; i 1; q 617 625; q (-2497) 100; i 115; i 1; q 53 50; q 47 50];
    [i 81; i 1; i 0; i 0; i 0; i 0; i 1; q 517 500; q (-1889) 100; i 345; i 1; q 53 50; q 47 50];
    [i 84; i 2; i 37; i 13; i 0; i 0; i 1; q 41 40; q (-429) 25; i 115; i 1; q 53 50; q 47 50];
    [i 85; i 1; i 0; i 0; i 0; i 0; i 1; q 617 625; q (-442) 25; i 230; i 1; q 53 50; q 47 50];
    [i 86; i 1; i 0; i 0; i 0; i 0; i 1; q 9909 10000; q (-1419) 100; i 230; i 1; q 53 50; q 47 50];
    [i 87; i 1; i 0; i 0; i 0; i 0; i 1; q 9921 10000; q (-777) 100; i 230; i 1; q 53 50; q 47 50];
    [i 88; i 1; i 0; i 0; i 0; i 0; i 1; q 10151 10000; q (-524) 25; i 230; i 1; q 53 50; q 47 50];
    [i 89; i 1; q 221 5; i 0; i 0; i 0; i 1; q 10317 10000; q (-1113) 100; i 115; i 1; q 53 50; q 47 50];
    [i 90; i 1; i 66; i 0; i 0; i 0; i 1; q 642 625; q (-1123) 100; i 115; i 1; q 53 50; q 47 50];
    [i 91; i 2; q 87 5; i 0; i 0; i 0; i 1; q 263 250; q (-47) 5; i 115; i 1; q 53 50; q 47 50];
    [i 92; i 2; q 79 5; i 0; i 0; i 0; i 1; q 263 250; q (-31) 5; i 115; i 1; q 53 50; q 47 50];
    [i 94; i 1; q 603 10; i 0; i 0; i 0; i 1; q 993 1000; q (-471) 50; i 115; i 1; q 53 50; q 47 50];
    [i 97; i 1; q 399 10; i 0; i 0; i 0; i 1; q 10183 10000; q (-331) 25; i 115; i 1; q 53 50; q 47 50];
    [i 98; i 2; q 667 10; i 0; i 0; i 0; i 1; i 1; q (-73) 5; i 115; i 1; q 53 50; q 47 50];
    [i 99; i 1; q 167 2; i 0; i 0; i 0; i 1; q 4947 5000; q (-2027) 100; i 115; i 1; q 53 50; q 47 50];
    [i 100; i 1; i 0; i 0; i 0; i 0; i 1; q 503 500; q (-289) 20; i 115; i 1; q 53 50; q 47 50];
    [i 102; i 1; q 389 5; i 0; i 0; i 0; i 1; q 1251 1250; q (-1523) 100; i 115; i 1; q 53 50; q 47 50];
    [i 103; i 1; i 32; i 0; i 0; i 0; i 1; q 643 625; q (-603) 50; i 115; i 1; q 53 50; q 47 50];
    [i 104; i 1; q 43 5; i 0; i 0; i 0; i 1; q 4979 5000; q (-1733) 100; i 115; i 1; q 53 50; q 47 50];
    [i 105; i 1; q 248 5; i 0; i 0; i 0; i 1; q 10223 10000; q (-647) 50; i 115; i 1; q 53 50; q 47 50];
    [i 107; i 1; q 23 5; i 0; i 0; i 0; i 1; q 2019 2000; q (-1603) 100; i 115; i 1; q 53 50; q 47 50];
    [i 108; i 2; q 1121 10; i 0; i 0; i 0; i 1; q 99 100; q (-1013) 50; i 115; i 1; q 53 50; q 47 50];
    [i 109; i 1; q 307 10; i 0; i 0; i 0; i 1; q 9749 10000; q (-1303) 50; i 115; i 1; q 53 50; q 47 50];
    [i 110; i 1; i 63; i 0; i 0; i 0; i 1; q 973 1000; q (-618) 25; i 115; i 1; q 53 50; q 47 50];
    [i 112; i 1; q 98 5; i 0; i 0; i 0; i 1; q 389 400; q (-2869) 100; i 115; i 1; q 53 50; q 47 50];
    [i 113; i 1; q 131 5; i 0; i 0; i 0; i 1; q 97 100; q (-1269) 50; i 115; i 1; q 53 50; q 47 50];
    [i 114; i 1; q 91 5; i 0; i 0; i 0; i 1; q 9747 10000; q (-2859) 100; i 115; i 1; q 53 50; q 47 50];
    [i 115; i 1; i 0; i 0; i 0; i 0; i 1; q 9603 10000; q (-1357) 100; i 115; i 2; q 53 50; q 47 50];
    [i 116; i 1; i 0; i 0; i 0; i 0; i 1; q 10249 10000; q (-1269) 100; i 115; i 2; q 53 50; q 47 50];
    [i 117; i 1; i 0; i 0; i 0; i 325; i 1; q 2337 2500; q (-118) 25; i 115; i 2; q 53 50; q 47 50];
    [i 118; i 1; q 141 10; i 650; i 0; i 0; i 1; q 4649 5000; q (-103) 25; i 115; i 2; q 53 50; q 47 50];
    [i 119; i 2; i 0; i 0; i 0; i 0; i 1; q 2087 2000; q 517 100; i 115; i 2; q 53 50; q 47 50];
    [i 120; i 1; i 777; i 215; i 0; i 55; i 1; q 599 625; q (-877) 100; i 115; i 2; q 53 50; q 47 50];
    [i 121; i 1; i 535; i 55; i 0; i 0; i 1; q 9871 10000; q (-316) 25; i 115; i 2; q 53 50; q 47 50];
    [i 122; i 1; q 2291 10; q 59 5; i 0; i 0; i 1; q 608 625; q (-359) 25; i 115; i 2; q 53 50; q 47 50];
    [i 123; i 1; i 78; q 7 5; i 0; i 0; i 1; q 5003 5000; q (-441) 25; i 115; i 2; q 53 50; q 47 50];
    [i 124; i 2; q 1382 5; q 593 10; i 0; i 0; i 1; q 10233 10000; q (-1349) 100; i 115; i 2; q 53 50; q 47 50];
    [i 125; i 2; q 2574 5; q 827 10; i 0; i 0; i 1; q 10103 10000; q (-1843) 100; i 115; i 2; q 53 50; q 47 50];
    [i 126; i 1; q 579 10; q 51 10; i 0; i 0; i 1; q 4989 5000; q (-643) 50; i 115; i 2; q 53 50; q 47 50];
    [i 127; i 1; q 1904 5; i 37; i 0; i 0; i 1; q 10001 10000; q (-263) 25; i 230; i 2; q 53 50; q 47 50];
    [i 128; i 1; i 0; i 0; i 0; i 0; i 1; q 1253 1250; q (-239) 50; i 230; i 2; q 53 50; q 47 50];
    [i 129; i 1; i 0; i 0; i 0; i 0; i 1; q 2507 2500; q (-22) 5; i 230; i 2; q 53 50; q 47 50];
    [i 130; i 1; i 0; i 0; i 0; i 0; i 1; q 10191 10000; q 139 25; i 230; i 2; q 53 50; q 47 50];
    [i 131; i 1; i 0; i 0; i 0; i 0; i 1; q 9861 10000; q 303 50; i 230; i 2; q 53 50; q 47 50];
    [i 132; i 1; i 0; i 0; i 0; i 0; i 1; q 2009 2000; q 76 25; i 230; i 2; q 53 50; q 47 50];
    [i 133; i 1; i 0; i 0; i 0; i 0; i 1; q 501 500; q (-273) 50; i 230; i 2; q 53 50; q 47 50];
    [i 134; i 1; i 0; i 0; i 0; i 0; i 1; q 511 500; q (-201) 25; i 230; i 2; q 53 50; q 47 50];
    [i 135; i 1; q 846 5; q 208 5; i 0; i 0; i 1; q 10193 10000; q (-169) 25; i 230; i 2; q 53 50; q 47 50];
    [i 136; i 1; q 276 5; q 91 5; i 0; i 0; i 1; q 2619 2500; q 77 50; i 230; i 2; q 53 50; q 47 50];
    [i 137; i 1; q 1368 5; q 499 5; i 0; i 0; i 1; q 10471 10000; q (-29) 20; i 230; i 2; q 53 50; q 47 50];
    [i 138; i 2; q 5096 5; q 676 5; i 0; i 0; i 1; q 211 200; q (-127) 20; i 230; i 2; q 53 50; q 47 50];
    [i 139; i 1; i 595; q 833 10; i 0; i 0; i 1; q 10117 10000; q (-357) 100; i 115; i 2; q 53 50; q 47 50];
    [i 140; i 1; q 3877 10; q 1147 10; i 0; i 0; i 1; q 1043 1000; q (-86) 25; i 230; i 2; q 53 50; q 47 50];
    [i 141; i 2; i 145; i 58; i 0; i 0; i 1; q 1051 1000; q 1 20; i 230; i 2; q 53 50; q 47 50];
    [i 142; i 1; q 113 2; q 49 2; i 0; i 0; i 1; q 2031 2000; q (-277) 100; i 230; i 2; q 53 50; q 47 50];
    [i 143; i 2; q 179 2; q 71 2; i 0; i 0; i 1; q 2087 2000; q 403 100; i 230; i 2; q 53 50; q 47 50];
    [i 144; i 1; i 0; i 0; i 0; i 0; i 1; q 127 125; q (-7) 10; i 230; i 2; q 53 50; q 47 50];
    [i 145; i 1; i 24; i 14; i 0; i 0; i 1; q 10081 10000; q (-4) 25; i 230; i 2; q 53 50; q 47 50];
    [i 146; i 2; i 0; i 0; i 0; i 0; i 1; q 658 625; q 108 25; i 230; i 2; q 53 50; q 47 50];
    [i 147; i 2; i 0; i 0; i 0; i 0; i 1; q 658 625; q 209 25; i 230; i 2; q 53 50; q 47 50];
    [i 148; i 1; i 63; i 25; i 0; i 0; i 1; q 10577 10000; q 7 25; i 230; i 2; q 53 50; q 47 50];
    [i 149; i 2; i 0; i 0; i 0; i 0; i 1; q 2147 2000; q 523 100; i 230; i 2; q 53 50; q 47 50];
    [i 150; i 1; i 0; i 0; i 0; i 0; i 1; q 9869 10000; q 317 50; i 230; i 2; q 53 50; q 47 50];
    [i 151; i 1; i 0; i 0; i 0; i 0; i 1; q 628 625; q 413 100; i 230; i 2; q 53 50; q 47 50];
    [i 152; i 2; i 17; i 9; i 0; i 0; i 1; q 2107 2000; q 231 25; i 230; i 2; q 53 50; q 47 50];
    [i 153; i 2; i 0; i 0; i 0; i 0; i 1; q 2087 2000; q 523 50; i 230; i 2; q 53 50; q 47 50];
    [i 154; i 1; i 70; i 5; i 0; q 69 2; i 1; q 9663 10000; q (-9) 5; i 115; i 2; q 53 50; q 47 50];
    [i 155; i 1; i 200; i 50; i 0; i 0; i 1; q 10177 10000; q 27 4; i 230; i 2; q 53 50; q 47 50];
    [i 156; i 2; i 75; i 50; i 0; i 0; i 1; q 963 1000; q 103 20; i 115; i 2; q 53 50; q 47 50];
    [i 157; i 1; q 247 2; q (-243) 10; i 0; i 0; i 1; q 1969 2000; q (-1193) 100; i 230; i 2; q 53 50; q 47 50];
    [i 158; i 1; i 0; i 0; i 0; i 0; i 1; q 9987 10000; q (-57) 5; i 230; i 2; q 53 50; q 47 50];
    [i 159; i 1; i 33; q 33 2; i 0; i 0; i 1; q 9867 10000; q (-491) 50; i 230; i 2; q 53 50; q 47 50];
    [i 160; i 1; i 0; i 0; i 0; i 0; i 1; q 4999 5000; q (-251) 20; i 230; i 2; q 53 50; q 47 50];
    [i 161; i 1; i 35; i 15; i 0; i 0; i 1; q 259 250; q 177 20; i 230; i 2; q 53 50; q 47 50];
    [i 162; i 1; i 85; i 24; i 0; i 0; i 1; q 4959 5000; q 37 2; i 230; i 2; q 53 50; q 47 50];
    [i 163; i 1; i 0; q 2 5; i 0; i 0; i 1; q 1041 1000; q 291 100; i 230; i 2; q 53 50; q 47 50];
    [i 164; i 1; i 0; i 0; i 0; i (-212); i 1; q 9839 10000; q 483 50; i 230; i 2; q 53 50; q 47 50];
    [i 165; i 1; i 0; i 0; i 0; i 0; i 1; q 5001 5000; q 2631 100; i 230; i 2; q 53 50; q 47 50];
    [i 166; i 1; i 0; i 0; i 0; i (-103); i 1; q 9973 10000; q 1511 50; i 230; i 2; q 53 50; q 47 50];
    [i 167; i 1; q 2999 10; q 957 10; i 0; i 0; i 1; q 1943 2000; q (-691) 100; i 230; i 2; q 53 50; q 47 50];
    [i 168; i 1; i 0; i 0; i 0; i 0; i 1; q 1253 1250; q (-24) 5; i 230; i 2; q 53 50; q 47 50];
    [i 169; i 1; i 0; i 0; i 0; i 0; i 1; q 9879 10000; q (-167) 25; i 230; i 2; q 53 50; q 47 50];
    [i 170; i 2; q 2409 5; i 205; i 0; i 0; i 1; q 929 1000; q 9 100; i 115; i 2; q 53 50; q 47 50];
    [i 171; i 2; q 3818 5; q 2911 10; i 0; i 0; i 1; q 9829 10000; q (-497) 50; i 115; i 2; q 53 50; q 47 50];
    [i 172; i 1; q 53 2; i 0; i 0; i 0; i 1; q 2561 2500; q (-311) 50; i 115; i 2; q 53 50; q 47 50];
    [i 173; i 1; q 327 2; i 43; i 0; i 53; i 1; q 9837 10000; q (-51) 4; i 115; i 2; q 53 50; q 47 50];
    [i 174; i 1; i 0; i 0; i 0; i 0; i 1; q 5311 5000; q (-269) 100; i 115; i 2; q 53 50; q 47 50];
    [i 175; i 1; i 176; i 83; i 0; i 0; i 1; q 973 1000; q (-721) 100; i 115; i 2; q 53 50; q 47 50];
    [i 176; i 2; i 5; i 4; i 0; i 0; i 1; q 5261 5000; q 467 100; i 115; i 2; q 53 50; q 47 50];
    [i 177; i 2; i 28; i 12; i 0; i 0; i 1; q 10077 10000; q 31 50; i 115; i 2; q 53 50; q 47 50];
    [i 178; i 1; q 2137 5; q 868 5; i 0; i 0; i 1; q 9397 10000; q (-164) 25; i 115; i 2; q 53 50; q 47 50];
    [i 179; i 1; i 74; i 29; i 0; i 45; i 1; q 9699 10000; q (-937) 100; i 115; i 2; q 53 50; q 47 50];
    [i 180; i 1; q 139 2; q 493 10; i 0; i 0; i 1; q 9793 10000; q (-309) 100; i 115; i 2; q 53 50; q 47 50];
    [i 181; i 1; q 367 5; i 0; i 0; i 0; i 1; q 5259 5000; q (-133) 100; i 230; i 2; q 53 50; q 47 50];
    [i 182; i 1; q 2407 10; i 89; i 0; i 0; i 1; q 10447 10000; q (-419) 100; i 230; i 2; q 53 50; q 47 50];
    [i 183; i 1; i 40; i 4; i 0; i 0; i 1; q 9717 10000; q 178 25; i 115; i 2; q 53 50; q 47 50];
    [i 184; i 1; q 684 5; q 83 5; i 0; i 0; i 1; q 5193 5000; q (-137) 20; i 230; i 2; q 53 50; q 47 50];
    [i 185; i 2; i 0; i 0; i 0; i 0; i 1; q 5261 5000; q (-433) 100; i 230; i 2; q 53 50; q 47 50];
    [i 186; i 2; q 299 5; q 243 10; i 0; i 0; i 1; q 213 200; q 217 100; i 230; i 2; q 53 50; q 47 50];
    [i 187; i 2; q 299 5; q 243 10; i 0; i 0; i 1; q 213 200; q 7 5; i 230; i 2; q 53 50; q 47 50];
    [i 188; i 1; q 913 5; q 218 5; i 0; i 0; i 1; q 10533 10000; q (-18) 25; i 230; i 2; q 53 50; q 47 50];
    [i 189; i 1; i 7; i 2; i 0; i 0; i 1; q 399 400; q (-646) 25; i 66; i 3; q 53 50; q 47 50];
    [i 190; i 2; i 0; i 0; i 0; i (-150); i 1; q 10551 10000; q (-1031) 50; i 345; i 3; q 53 50; q 47 50];
    [i 191; i 2; i 489; i 53; i 0; i 0; i 1; q 2087 2000; q 49 4; i 230; i 3; q 53 50; q 47 50];
    [i 192; i 1; i 800; i 72; i 0; i 0; i 1; q 4687 5000; q (-559) 50; i 230; i 3; q 53 50; q 47 50];
    [i 193; i 1; i 0; i 0; i 0; i 0; i 1; q 9897 10000; q (-2609) 100; i 66; i 3; q 53 50; q 47 50];
    [i 194; i 1; i 0; i 0; i 0; i 0; i 1; q 10489 10000; q (-1921) 100; i 345; i 3; q 53 50; q 47 50];
    [i 195; i 1; i 0; i 0; i 0; i 0; i 1; q 10357 10000; q (-2079) 100; i 345; i 3; q 53 50; q 47 50];
    [i 196; i 1; i 10; i 3; i 0; i 0; i 1; q 1939 2000; q (-633) 25; i 115; i 3; q 53 50; q 47 50];
    [i 197; i 1; i 43; i 14; i 0; i 0; i 1; q 9907 10000; q (-593) 25; i 115; i 3; q 53 50; q 47 50];
    [i 198; i 2; i 64; i 21; i 0; i 0; i 1; q 203 200; q (-1029) 50; i 115; i 3; q 53 50; q 47 50];
    [i 199; i 1; i 35; i 12; i 0; i 0; i 1; q 1191 1250; q (-521) 20; i 115; i 3; q 53 50; q 47 50];
    [i 200; i 1; i 27; i 12; i 0; i 0; i 1; q 191 200; q (-2593) 100; i 115; i 3; q 53 50; q 47 50];
    [i 201; i 1; i 41; i 14; i 0; i 0; i 1; q 2423 2500; q (-2749) 100; i 66; i 1; q 53 50; q 47 50];
    [i 202; i 1; i 38; i 13; i 0; i 0; i 1; q 2477 2500; q (-2533) 100; i 66; i 3; q 53 50; q 47 50];
    [i 203; i 1; i 42; i 14; i 0; i 0; i 1; q 10033 10000; q (-447) 20; i 115; i 3; q 53 50; q 47 50];
    [i 204; i 1; i 72; i 24; i 0; i 0; i 1; q 4859 5000; q (-257) 10; i 66; i 3; q 53 50; q 47 50];
    [i 205; i 1; i 0; i (-5); i 0; i 0; i 1; q 4919 5000; q (-2607) 100; i 66; i 3; q 53 50; q 47 50];
    [i 206; i 1; i 12; i 2; i 0; i 0; i 1; q 1249 1250; q (-2741) 100; i 66; i 3; q 53 50; q 47 50];
    [i 207; i 1; i (-21); q (-71) 5; i 0; i 0; i 1; q 10137 10000; q (-686) 25; i 66; i 1; q 53 50; q 47 50];
    [i 208; i 1; i 7; i 2; i 0; i 0; i 1; q 9929 10000; q (-657) 25; i 66; i 3; q 53 50; q 47 50];
    [i 209; i 1; i 38; i 13; i 0; i 0; i 1; q 9999 10000; q (-1283) 50; i 66; i 3; q 53 50; q 47 50];
    [i 210; i 1; i 0; i 0; i 0; i 0; i 1; q 2447 2500; q (-1211) 50; i 115; i 3; q 53 50; q 47 50];
    [i 211; i 1; i 96; i 7; i 0; i 0; i 1; q 10017 10000; q (-2331) 100; i 115; i 3; q 53 50; q 47 50];
    [i 212; i 1; i 0; i 0; i 0; i 0; i 1; q 2533 2500; q (-2251) 100; i 138; i 3; q 53 50; q 47 50];
    [i 213; i 2; i 0; i 0; i 0; i 0; i 1; q 101 100; q (-1167) 100; q 33 2; i 3; q 53 50; q 47 50];
    [i 214; i 1; i 22; i 16; i 0; i 0; i 1; q 9919 10000; q (-1753) 100; i 138; i 3; q 53 50; q 47 50];
    [i 215; i 1; i 47; i 26; i 0; i 0; i 1; q 4933 5000; q (-2023) 100; i 138; i 3; q 53 50; q 47 50];
    [i 216; i 1; i 176; i 105; i 0; i 0; i 1; q 9751 10000; q (-2253) 100; i 138; i 3; q 53 50; q 47 50];
    [i 217; i 1; i 100; i 75; i 0; i 0; i 1; q 2043 2000; q (-111) 5; i 138; i 3; q 53 50; q 47 50];
    [i 218; i 1; i 131; i 96; i 0; i 0; i 1; q 403 400; q (-2263) 100; i 138; i 3; q 53 50; q 47 50];
    [i 219; i 1; i 0; i 0; i 0; i 0; i 1; q 5277 5000; q (-423) 20; i 345; i 3; q 53 50; q 47 50];
    [i 220; i 2; i 285; i 100; i 0; i 0; i 1; q 126 125; q (-2173) 100; i 138; i 3; q 53 50; q 47 50];
    [i 221; i 2; i 171; i 70; i 0; i 0; i 1; i 1; q (-2249) 100; i 138; i 3; q 53 50; q 47 50];
    [i 222; i 2; i 328; i 188; i 0; i 0; i 1; q 21 20; q (-2317) 100; i 20; i 3; q 53 50; q 47 50];
    [i 223; i 1; i 428; i 232; i 0; i 0; i 1; q 1993 2000; q (-227) 10; i 138; i 3; q 53 50; q 47 50];
    [i 224; i 1; i 173; i 99; i 0; i 0; i 1; q 5001 5000; q (-431) 20; i 230; i 3; q 53 50; q 47 50];
    [i 225; i 1; i 410; i 40; i 0; i 0; i 1; q 9453 10000; q (-567) 50; i 230; i 3; q 53 50; q 47 50];
    [i 226; i 1; i 0; i 0; i 0; i 0; i 1; q 509 500; q (-2161) 100; i 230; i 3; q 53 50; q 47 50];
    [i 227; i 2; i 538; i 369; i 0; i 0; i 1; i 1; q (-1361) 50; i 27; i 3; q 53 50; q 47 50];
    [i 228; i 1; i 223; i 148; i 0; i 0; i 1; q 10423 10000; q (-1047) 50; i 138; i 3; q 53 50; q 47 50];
    [i 229; i 1; i 96; i 46; i 0; i 0; i 1; q 656 625; q (-997) 50; i 138; i 3; q 53 50; q 47 50];
    [i 230; i 2; i 0; i 0; i 0; i 0; i 1; q 26 25; q (-691) 50; i 20; i 3; q 53 50; q 47 50];
    [i 231; i 1; i 159; i 107; i 0; i (-300); i 1; q 2107 2000; q (-1061) 50; i 345; i 3; q 53 50; q 47 50];
    [i 232; i 1; i 448; i 143; i 0; i 0; i 1; q 5207 5000; q (-2319) 100; i 138; i 3; q 53 50; q 47 50];
    [i 233; i 2; i 404; i 212; i 0; i 0; i 1; i 1; q (-259) 10; i 66; i 3; q 53 50; q 47 50];
    [i 234; i 1; i 572; i 244; i 0; i 0; i 1; q 10387 10000; q (-2089) 100; i 138; i 3; q 53 50; q 47 50];
    [i 235; i 1; i 269; i 157; i 0; i 0; i 1; q 2019 2000; q (-2103) 100; i 138; i 3; q 53 50; q 47 50];
    [i 236; i 2; i 0; i 0; i 0; i 0; i 1; q 2033 2000; q (-77) 5; i 20; i 3; q 53 50; q 47 50];
    [i 237; i 1; i 0; i 0; i 0; i 0; i 1; q 5279 5000; q (-211) 10; i 345; i 3; q 53 50; q 47 50];
    [i 238; i 2; i 255; i 149; i 0; i (-150); i 1; q 101 100; q (-1047) 50; i 138; i 3; q 53 50; q 47 50];
    [i 239; i 2; i 0; i 0; i 0; i 0; i 1; i 1; q (-793) 50; i 138; i 3; q 53 50; q 47 50];
    [i 240; i 1; i 0; i 0; i 0; i (-140); i 1; q 10237 10000; q (-1007) 50; i 230; i 3; q 53 50; q 47 50];
    [i 241; i 2; i 0; i 0; i 0; i 0; i 1; q 21 20; q (-33) 2; i 20; i 3; q 53 50; q 47 50];
    [i 242; i 2; i 0; i 0; i 0; i 0; i 1; q 993 1000; q (-1753) 100; i 138; i 3; q 53 50; q 47 50];
    [i 243; i 2; i 8; i 3; i 0; i 0; i 1; q 101 100; q (-1927) 100; i 66; i 3; q 53 50; q 47 50];
    [i 244; i 1; i 0; i 0; i 0; i 0; i 1; q 9921 10000; q (-2021) 100; i 66; i 3; q 53 50; q 47 50];
    [i 245; i 1; i 61; i 30; i 0; i 0; i 1; q 9711 10000; q (-209) 10; i 66; i 3; q 53 50; q 47 50];
    [i 246; i 1; i 77; i 33; i 0; i 0; i 1; q 9651 10000; q (-1087) 50; i 66; i 3; q 53 50; q 47 50];
    [i 247; i 1; i 61; i 30; i 0; i 0; i 1; q 1211 1250; q (-2167) 100; i 66; i 3; q 53 50; q 47 50];
    [i 248; i 1; i 29; i 14; i 0; q 228 5; i 1; q 122 125; q (-2523) 100; i 66; i 3; q 53 50; q 47 50];
    [i 249; i 1; i 29; i 14; i 0; i 0; i 1; q 1219 1250; q (-513) 20; i 66; i 3; q 53 50; q 47 50];
    [i 250; i 1; i (-23); i (-17); i 0; i 0; i 1; q 2549 2500; q (-119) 5; i 66; i 3; q 53 50; q 47 50];
    [i 281; i 1; q (-331) 10; q (-147) 5; i 0; i 0; i 1; q 10251 10000; q (-1003) 50; i 230; i 3; q 53 50; q 47 50];
    [i 319; i 1; q 579 5; i (-24); i 0; i 0; i 1; q 1269 1250; q 37 25; i 230; i 1; q 53 50; q 47 50];
    [i 320; i 1; q 12 5; q (-63) 5; i 0; i 0; i 1; q 5073 5000; q (-223) 100; i 115; i 1; q 53 50; q 47 50];
    [i 322; i 1; q 12 5; q (-39) 10; i 0; i 0; i 1; q 2001 2000; q (-1761) 100; i 115; i 1; q 53 50; q 47 50];
    [i 323; i 1; q (-149) 10; q 53 2; i 0; i 0; i 1; q 981 1000; q (-1369) 100; i 230; i 1; q 53 50; q 47 50];
    [i 324; i 1; q 247 10; q (-6) 5; i 0; i 0; i 1; q 39 40; q (-1171) 50; i 115; i 1; q 53 50; q 47 50];
    [i 526; i 1; q 1453 10; q (-349) 10; i 0; i 0; i 1; q 9429 10000; q (-3431) 100; i 115; i 1; q 53 50; q 47 50];
    [i 528; i 1; q 281 10; q (-41) 2; i 0; i 0; i 1; q 9723 10000; q (-1879) 50; i 115; i 1; q 53 50; q 47 50];
    [i 531; i 1; i 14; q 5 2; i 0; i 0; i 1; q 2401 2500; q (-291) 10; i 115; i 1; q 53 50; q 47 50];
    [i 552; i 1; q (-111) 10; q (-7) 5; i 0; i 0; i 1; q 10009 10000; q (-584) 25; i 115; i 1; q 53 50; q 47 50];
    [i 562; i 1; q 101 2; q 87 5; i 0; i 0; i 1; q 9777 10000; i (-28); i 230; i 1; q 53 50; q 47 50];
    [i 609; i 1; q 148 5; q 3 5; i 0; i 0; i 1; q 9583 10000; q (-2879) 100; i 115; i 1; q 53 50; q 47 50];
    [i 664; i 1; q (-1137) 10; q 767 10; i 0; i 0; i 1; q 10309 10000; i (-17); i 345; i 3; q 53 50; q 47 50];
    [i 1190; i 1; q 10031 100; q 2917 100; i 0; i 0; i 1; q 633 625; q 39 10; i 86; i 2; q 53 50; q 47 50];
    [i 1200; i 1; i (-100); q 3417 100; i 0; i 0; i 1; q 2561 2500; q (-188) 25; i 86; i 2; q 53 50; q 47 50];
    [i 1201; i 1; i 0; i 0; i 0; i 0; i 1; q 5061 5000; q (-759) 50; i 115; i 2; q 53 50; q 47 50];
    [i 2040; i 1; i 0; i 0; i 0; i 0; i 1; q 9653 10000; q (-747) 50; i 115; i 3; q 53 50; q 47 50];
    [i 7001; i 2; i 0; i 0; i 0; i 0; i 1; q 10507 10000; q 1079 100; q 69 5; i 1; q 53 50; q 47 50];
    [i 7002; i 2; i 0; i 0; i 0; i 0; i 1; q 10507 10000; q 312 25; q 69 5; i 1; q 53 50; q 47 50];
    [i 7003; i 2; i 0; i 0; i 0; i 0; i 1; q 10323 10000; q 344 25; q 69 5; i 1; q 53 50; q 47 50];
    [i 7011; i 2; i 0; i 0; i 0; i 0; i 1; q 2029 2000; q 499 100; q 69 5; i 1; q 53 50; q 47 50];
    [i 7012; i 2; i 0; i 0; i 0; i 0; i 1; q 10507 10000; q 1157 100; q 69 5; i 1; q 53 50; q 47 50];
    [i 7017; i 2; i 0; i 0; i 0; i 0; i 1; q 10507 10000; q (-1047) 100; q 69 5; i 1; q 53 50; q 47 50];
    [i 7023; i 2; i 0; i 0; i 0; i 0; i 1; q 10507 10000; q 123 20; q 69 5; i 1; q 53 50; q 47 50];
    [i 7024; i 2; i 0; i 0; i 0; i 0; i 1; q 1029 1000; q 63 5; q 69 5; i 1; q 53 50; q 47 50];
    [i 7039; i 2; i 0; i 0; i 0; i 0; i 1; q 21 20; q 211 100; i 20; i 1; q 53 50; q 47 50];
    [i 7044; i 2; i 0; i 0; i 0; i 0; i 1; q 2029 2000; q (-348) 25; q 69 5; i 1; q 53 50; q 47 50];
    [i 7049; i 3; i 0; i 0; i 0; i 0; i 1; q 10507 10000; i 0; q 69 5; i 1; q 53 50; q 47 50];
    [i 7055; i 2; i 0; i 0; i 0; i 0; i 1; q 9967 10000; q (-15) 2; q 69 5; i 1; q 53 50; q 47 50];
    [i 7057; i 2; i 0; i 0; i 0; i 0; i 1; q 2553 2500; q (-86) 25; q 69 5; i 1; q 53 50; q 47 50];
    [i 7061; i 2; i 0; i 0; i 0; i 0; i 1; q 2029 2000; q 197 100; q 69 5; i 1; q 53 50; q 47 50];
    [i 7062; i 2; i 0; i 0; i 0; i 0; i 1; q 10017 10000; q 29 5; q 69 5; i 1; q 53 50; q 47 50];
    [i 7071; i 2; i 0; i 0; i 0; i 0; i 1; q 9893 10000; q (-507) 20; q 69 5; i 1; q 53 50; q 47 50];
    [i 7130; i 2; i 0; i 0; i 0; i 0; i 1; q 10507 10000; q 951 50; q 69 5; i 2; q 53 50; q 47 50];
    [i 7139; i 2; i 0; i 0; i 0; i 0; i 1; q 10507 10000; q 11 4; q 69 5; i 2; q 53 50; q 47 50];
    [i 7166; i 2; i 0; i 0; i 0; i 0; i 1; q 2029 2000; q 701 20; q 69 5; i 2; q 53 50; q 47 50];
    [i 9001; i 1; i 0; i 0; i 0; i 0; i 1; q 10117 10000; q (-45) 4; i 115; i 9; q 53 50; q 47 50];
    [i 9002; i 2; q 21 5; i 0; i 0; i 0; i 1; q 1989 2000; q (-943) 50; q 33 5; i 9; q 53 50; q 47 50];
    [i 9003; i 1; q 271 100; q 47 50; q 7 50; q 12 5; i 1; q 9833 10000; q (-492) 25; q 33 5; i 9; q 53 50; q 47 50];
    [i 9004; i 1; q 43 50; q 7 25; i 0; i 0; i 1; q 1221 1250; q (-991) 50; q 33 5; i 9; q 53 50; q 47 50];
    [i 9005; i 1; i 0; i 0; i 0; i 0; i 1; q 10117 10000; q (-283) 25; i 115; i 9; q 53 50; q 47 50];
    [i 9006; i 1; i 0; i 0; i 0; i 0; i 1; q 10029 10000; q (-871) 50; q 33 5; i 9; q 53 50; q 47 50];
    [i 9007; i 1; i 0; i 0; i 0; i 0; i 1; q 9913 10000; q (-1869) 100; q 33 5; i 9; q 53 50; q 47 50];
    [i 9012; i 1; i 0; i 0; i 0; i 0; i 1; q 10023 10000; q (-1727) 100; q 33 5; i 9; q 53 50; q 47 50];
    [i 9021; i 1; q 19 4; q 39 25; i 0; i 0; i 1; q 9887 10000; q (-1909) 100; q 33 5; i 9; q 53 50; q 47 50];
    [i 9022; i 1; q 153 100; q 53 100; q 2 25; i 0; i 1; q 603 625; q (-2167) 100; q 3 5; i 9; q 53 50; q 47 50];
    [i 9023; i 1; i 0; i 0; i 0; i 0; i 1; q 9747 10000; q (-1941) 100; q 33 5; i 9; q 53 50; q 47 50];
    [i 9024; i 1; q 27 20; q 47 100; q 7 100; i 0; i 1; q 4853 5000; q (-2143) 100; q 3 5; i 9; q 53 50; q 47 50];
    [i 9025; i 1; q 9 20; q 4 25; q 1 50; i 0; i 1; q 9649 10000; q (-512) 25; q 3 5; i 9; q 53 50; q 47 50];
    [i 9026; i 1; q 9 20; q 4 25; q 1 50; i 0; i 1; q 9657 10000; q (-2039) 100; q 3 5; i 9; q 53 50; q 47 50];
    [i 9031; i 1; q 46 25; q 16 25; q 1 10; i 0; i 1; q 4659 5000; q (-2503) 100; q 3 5; i 9; q 53 50; q 47 50];
    [i 9032; i 1; q 139 100; q 12 25; q 7 100; i 0; i 1; q 9441 10000; q (-596) 25; q 3 5; i 9; q 53 50; q 47 50];
    [i 9033; i 1; q 189 100; q 13 20; q 1 10; i 0; i 1; q 4643 5000; q (-2533) 100; q 3 5; i 9; q 53 50; q 47 50];
    [i 9034; i 1; q 31 20; q 27 50; q 2 25; q 43 25; i 1; q 9973 10000; q (-211) 10; q 3 5; i 9; q 53 50; q 47 50];
    [i 9035; i 1; q 83 50; q 29 50; q 9 100; i 0; i 1; q 4753 5000; q (-2319) 100; q 3 5; i 9; q 53 50; q 47 50];
    [i 9036; i 1; q 303 100; i 1; i 0; i 0; i 1; q 4799 5000; q (-2267) 100; q 23 10; i 9; q 53 50; q 47 50];
    [i 9037; i 1; q 93 50; q 16 25; q 1 10; i 0; i 1; q 957 1000; q (-1129) 50; q 3 5; i 9; q 53 50; q 47 50];
    [i 9038; i 1; q 129 50; q 89 100; q 7 50; i 0; i 1; q 9391 10000; q (-2441) 100; q 3 5; i 9; q 53 50; q 47 50];
    [i 9041; i 1; q 101 100; q 7 20; q 1 20; i 0; i 1; q 2409 2500; q (-2133) 100; q 3 5; i 9; q 53 50; q 47 50];
    [i 9042; i 1; q 81 100; q 7 25; q 1 25; i 0; i 1; q 9501 10000; q (-45) 2; q 3 5; i 9; q 53 50; q 47 50];
    [i 9043; i 1; q 8 5; q 13 25; i 0; i 0; i 1; q 4823 5000; q (-1071) 50; q 23 10; i 9; q 53 50; q 47 50];
    [i 9044; i 1; i 0; i 0; i 0; i 0; i 1; q 979 1000; q (-989) 50; q 33 5; i 9; q 53 50; q 47 50];
    [i 9051; i 2; q 3581 100; i 0; i 0; i 0; i 1; i 1; q (-97) 5; q 69 5; i 9; q 53 50; q 47 50];
    [i 9052; i 1; i 30; i 23; i 0; i 0; i 1; q 4893 5000; q (-69) 4; q 69 5; i 9; q 53 50; q 47 50];
    [i 9053; i 2; q 662 25; i 0; i 0; i 0; i 1; i 1; q (-442) 25; q 69 5; i 9; q 53 50; q 47 50];
    [i 9054; i 2; i 0; i 0; i 0; i 0; i 1; i 1; q (-683) 100; q 69 5; i 9; q 53 50; q 47 50];
    [i 9055; i 2; i 0; i 0; i 0; i 0; i 1; i 1; q (-377) 50; q 69 5; i 9; q 53 50; q 47 50];
    [i 9071; i 1; q 51 50; q 7 20; q 1 20; i 0; i 1; q 1219 1250; q (-512) 25; q 3 5; i 9; q 53 50; q 47 50];
    [i 9072; i 1; q 51 50; q 7 20; q 1 20; i 0; i 1; q 9803 10000; q (-498) 25; q 3 5; i 9; q 53 50; q 47 50];
    [i 9121; i 1; q 19 5; q 5 4; i 0; i 0; i 1; q 9799 10000; q (-193) 10; q 33 5; i 9; q 53 50; q 47 50];
    [i 9533; i 1; q 119 100; q 41 100; q 1 10; i 0; i 1; q 5201 5000; q (-456) 25; q 23 10; i 9; q 53 50; q 47 50]]
   [[i 8; i 0; i 0; i 10; i (-10); q 10153 10000; i 100; i 1; i 100; i 0; i 0; i 0; i 0; i 0; i 0; i 0; i 0; i 0; i 0; i 0; i 0];
    [i 10; i 0; i 0; i 20; i (-20); q 2041 2000; i 100; i 1; i 100; i 0; i 0; i 0; i 0; i 0; i 0; i 0; i 0; i 0; i 0; i 0; i 0];
    [i 20; i 0; i 0; i 20; i (-20); q 1001 1000; i 100; i 1; i 100; i 0; i 0; i 0; i 0; i 0; i 0; i 0; i 0; i 0; i 0; i 0; i 0];
    [i 63; i 0; i 0; i 25; i (-25); q 9583 10000; i 100; i 1; i 100; i 0; i 0; i 0; i 0; i 0; i 0; i 0; i 0; i 0; i 0; i 0; i 0];
    [i 76; i 0; i 0; i 35; i 12; q 602 625; i 100; i 1; i 100; i 0; i 0; i 0; i 0; i 0; i 0; i 0; i 0; i 0; i 0; i 0; i 0];
    [i 84; i 375; i 0; i 240; i (-240); q 41 40; i 100; i 1; i 475; i 0; i 0; i 0; i 0; i 0; i 0; i 0; i 0; i 0; i 0; i 0; i 0];
    [i 91; i 155; i 0; i 96; i (-11); q 263 250; i 100; i 1; i 255; i 0; i 0; i 0; i 0; i 0; i 0; i 0; i 0; i 0; i 0; i 0; i 0];
    [i 92; i 290; i 0; i 153; i (-153); q 263 250; i 100; i 1; i 390; i 0; i 0; i 0; i 0; i 0; i 0; i 0; i 0; i 0; i 0; i 0; i 0];
    [i 98; i 68; i 0; i 56; i (-30); i 1; i 100; i 1; i 168; i 0; i 0; i 0; i 0; i 0; i 0; i 0; i 0; i 0; i 0; i 0; i 0];
    [i 108; i 117; i 0; i 77; i (-24); q 99 100; i 100; i 1; i 217; i 0; i 0; i 0; i 0; i 0; i 0; i 0; i 0; i 0; i 0; i 0; i 0];
    [i 119; i 1930; i 0; i 1500; i (-500); q 2087 2000; i 100; i 1; i 2030; i 0; i 0; i 0; i 0; i 0; i 0; i 0; i 0; i 0; i 0; i 0; i 0];
    [i 124; i 240; i 0; i 120; i (-60); q 10233 10000; i 100; i 1; i 340; i 0; i 0; i 0; i 0; i 0; i 0; i 0; i 0; i 0; i 0; i 0; i 0];
    [i 125; i 0; i 0; i 200; i (-25); q 10103 10000; i 100; i 1; i 100; i 0; i 0; i 0; i 0; i 0; i 0; i 0; i 0; i 0; i 0; i 0; i 0];
    [i 138; i 0; i 0; i 350; i (-125); q 211 200; i 100; i 1; i 100; i 0; i 0; i 0; i 0; i 0; i 0; i 0; i 0; i 0; i 0; i 0; i 0];
    [i 141; i 281; i 0; i 75; i (-50); q 1051 1000; i 100; i 1; i 381; i 0; i 0; i 0; i 0; i 0; i 0; i 0; i 0; i 0; i 0; i 0; i 0];
    [i 143; i 696; i 0; i 300; i (-100); q 2087 2000; i 100; i 1; i 796; i 0; i 0; i 0; i 0; i 0; i 0; i 0; i 0; i 0; i 0; i 0; i 0];
    [i 146; i 84; i 0; i 35; i (-15); q 658 625; i 100; i 1; i 184; i 0; i 0; i 0; i 0; i 0; i 0; i 0; i 0; i 0; i 0; i 0; i 0];
    [i 147; i 217; i 0; i 100; i (-50); q 658 625; i 100; i 1; i 317; i 0; i 0; i 0; i 0; i 0; i 0; i 0; i 0; i 0; i 0; i 0; i 0];
    [i 149; i 103; i 0; i 50; i (-25); q 2147 2000; i 100; i 1; i 203; i 0; i 0; i 0; i 0; i 0; i 0; i 0; i 0; i 0; i 0; i 0; i 0];
    [i 152; i 372; i 0; i 175; i (-50); q 2107 2000; i 100; i 1; i 472; i 0; i 0; i 0; i 0; i 0; i 0; i 0; i 0; i 0; i 0; i 0; i 0];
    [i 153; i 216; i 0; i 90; i (-50); q 2087 2000; i 100; i 1; i 316; i 0; i 0; i 0; i 0; i 0; i 0; i 0; i 0; i 0; i 0; i 0; i 0];
    [i 156; i 0; i 0; i 15; i (-10); q 963 1000; i 100; i 1; i 100; i 0; i 0; i 0; i 0; i 0; i 0; i 0; i 0; i 0; i 0; i 0; i 0];
    [i 170; i 205; i 0; i 90; i (-40); q 929 1000; i 100; i 1; i 305; i 0; i 0; i 0; i 0; i 0; i 0; i 0; i 0; i 0; i 0; i 0; i 0];
    [i 171; i 0; i 0; i 150; i (-50); q 9829 10000; i 100; i 1; i 100; i 0; i 0; i 0; i 0; i 0; i 0; i 0; i 0; i 0; i 0; i 0; i 0];
    [i 176; i 228; i 0; i 90; i (-45); q 5261 5000; i 100; i 1; i 328; i 0; i 0; i 0; i 0; i 0; i 0; i 0; i 0; i 0; i 0; i 0; i 0];
    [i 177; i 84; i 0; i 35; i (-15); q 10077 10000; i 100; i 1; i 184; i 0; i 0; i 0; i 0; i 0; i 0; i 0; i 0; i 0; i 0; i 0; i 0];
    [i 185; i 200; i 0; i 80; i (-50); q 5261 5000; i 100; i 1; i 300; i 0; i 0; i 0; i 0; i 0; i 0; i 0; i 0; i 0; i 0; i 0; i 0];
    [i 186; i 1200; i 0; i 400; i (-100); q 213 200; i 100; i 1; i 1300; i 0; i 0; i 0; i 0; i 0; i 0; i 0; i 0; i 0; i 0; i 0; i 0];
    [i 187; i 1200; i 0; i 400; i (-100); q 213 200; i 100; i 1; i 1300; i 0; i 0; i 0; i 0; i 0; i 0; i 0; i 0; i 0; i 0; i 0; i 0];
    [i 190; i 475; i 0; i 300; i (-300); q 10551 10000; i 100; i 1; i 575; i 0; i 0; i 0; i 0; i 0; i 0; i 0; i 0; i 0; i 0; i 0; i 0];
    [i 191; i 1973; i 0; i 1000; i (-1000); q 2087 2000; i 100; i 1; i 2073; i 0; i 0; i 0; i 0; i 0; i 0; i 0; i 0; i 0; i 0; i 0; i 0];
    [i 198; i 424; i 0; i 260; i (-260); q 203 200; i 100; i 1; i 524; i 0; i 0; i 0; i 0; i 0; i 0; i 0; i 0; i 0; i 0; i 0; i 0];
    [i 213; i 272; i 0; i 150; i (-150); q 101 100; i 100; i 1; i 372; i 0; i 0; i 0; i 0; i 0; i 0; i 0; i 0; i 0; i 0; i 0; i 0];
    [i 220; i 100; i 0; i 60; i (-60); q 126 125; i 100; i 1; i 200; i 0; i 0; i 0; i 0; i 0; i 0; i 0; i 0; i 0; i 0; i 0; i 0];
    [i 221; i 450; i 0; i 320; i (-320); i 1; i 100; i 1; i 550; i 0; i 0; i 0; i 0; i 0; i 0; i 0; i 0; i 0; i 0; i 0; i 0];
    [i 222; i 250; i 0; i 300; i (-300); q 21 20; i 100; i 1; i 350; i 0; i 0; i 0; i 0; i 0; i 0; i 0; i 0; i 0; i 0; i 0; i 0];
    [i 227; i 303; i 0; i 300; i (-300); i 1; i 100; i 1; i 403; i 0; i 0; i 0; i 0; i 0; i 0; i 0; i 0; i 0; i 0; i 0; i 0];
    [i 230; i 345; i 0; i 250; i (-250); q 26 25; i 100; i 1; i 445; i 0; i 0; i 0; i 0; i 0; i 0; i 0; i 0; i 0; i 0; i 0; i 0];
    [i 233; i 300; i 0; i 500; i (-500); i 1; i 100; i 1; i 400; i 0; i 0; i 0; i 0; i 0; i 0; i 0; i 0; i 0; i 0; i 0; i 0];
    [i 236; i 600; i 0; i 300; i (-300); q 2033 2000; i 100; i 1; i 700; i 0; i 0; i 0; i 0; i 0; i 0; i 0; i 0; i 0; i 0; i 0; i 0];
    [i 238; i 250; i 0; i 200; i (-200); q 101 100; i 100; i 1; i 350; i 0; i 0; i 0; i 0; i 0; i 0; i 0; i 0; i 0; i 0; i 0; i 0];
    [i 239; i 550; i 0; i 400; i (-400); i 1; i 100; i 1; i 650; i 0; i 0; i 0; i 0; i 0; i 0; i 0; i 0; i 0; i 0; i 0; i 0];
    [i 241; q 57543 100; i 0; i 600; i (-600); q 21 20; i 100; i 1; q 67543 100; i 0; i 0; i 0; i 0; i 0; i 0; i 0; i 0; i 0; i 0; i 0; i 0];
    [i 242; i 170; i 0; i 100; i 40; q 993 1000; i 100; i 1; i 270; i 0; i 0; i 0; i 0; i 0; i 0; i 0; i 0; i 0; i 0; i 0; i 0];
    [i 243; i 84; i 0; i 80; i 40; q 101 100; i 100; i 1; i 184; i 0; i 0; i 0; i 0; i 0; i 0; i 0; i 0; i 0; i 0; i 0; i 0];
    [i 7001; i 467; i 0; i 210; i (-210); q 10507 10000; i 100; i 1; i 567; i 0; i 0; i 0; i 0; i 0; i 0; i 0; i 0; i 0; i 0; i 0; i 0];
    [i 7002; i 623; i 0; i 280; i (-280); q 10507 10000; i 100; i 1; i 723; i 0; i 0; i 0; i 0; i 0; i 0; i 0; i 0; i 0; i 0; i 0; i 0];
    [i 7003; i 1210; i 0; i 420; i (-420); q 10323 10000; i 100; i 1; i 1310; i 0; i 0; i 0; i 0; i 0; i 0; i 0; i 0; i 0; i 0; i 0; i 0];
    [i 7011; i 234; i 0; i 100; i (-100); q 2029 2000; i 100; i 1; i 334; i 0; i 0; i 0; i 0; i 0; i 0; i 0; i 0; i 0; i 0; i 0; i 0];
    [i 7012; i 372; i 0; i 224; i (-224); q 10507 10000; i 100; i 1; i 472; i 0; i 0; i 0; i 0; i 0; i 0; i 0; i 0; i 0; i 0; i 0; i 0];
    [i 7017; i 330; i 0; i 350; i 0; q 10507 10000; i 100; i 1; i 430; i 0; i 0; i 0; i 0; i 0; i 0; i 0; i 0; i 0; i 0; i 0; i 0];
    [i 7023; i 185; i 0; i 120; i 0; q 10507 10000; i 100; i 1; i 285; i 0; i 0; i 0; i 0; i 0; i 0; i 0; i 0; i 0; i 0; i 0; i 0];
    [i 7024; i 410; i 0; i 224; i (-224); q 1029 1000; i 100; i 1; i 510; i 0; i 0; i 0; i 0; i 0; i 0; i 0; i 0; i 0; i 0; i 0; i 0];
    [i 7039; i 500; i 0; i 200; i (-200); q 21 20; i 100; i 1; i 600; i 0; i 0; i 0; i 0; i 0; i 0; i 0; i 0; i 0; i 0; i 0; i 0];
    [i 7044; i 37; i 0; i 42; i 0; q 2029 2000; i 100; i 1; i 137; i 0; i 0; i 0; i 0; i 0; i 0; i 0; i 0; i 0; i 0; i 0; i 0];
    [i 7049; i 0; i 0; i 10; i 0; q 10507 10000; i 100; i 1; q 239901 100; i 0; i 0; i 0; i 0; i 0; i 0; i 0; i 0; i 0; i 0; i 0; i 0];
    [i 7055; i 45; i 0; i 25; i 0; q 9967 10000; i 100; i 1; i 145; i 0; i 0; i 0; i 0; i 0; i 0; i 0; i 0; i 0; i 0; i 0; i 0];
    [i 7057; i 165; i 0; i 90; i (-90); q 2553 2500; i 100; i 1; i 265; i 0; i 0; i 0; i 0; i 0; i 0; i 0; i 0; i 0; i 0; i 0; i 0];
    [i 7061; i 400; i 0; i 150; i (-150); q 2029 2000; i 100; i 1; i 500; i 0; i 0; i 0; i 0; i 0; i 0; i 0; i 0; i 0; i 0; i 0; i 0];
    [i 7062; i 400; i 0; i 150; i 0; q 10017 10000; i 100; i 1; i 500; i 0; i 0; i 0; i 0; i 0; i 0; i 0; i 0; i 0; i 0; i 0; i 0];
    [i 7071; i 116; i 0; i 87; i 0; q 9893 10000; i 100; i 1; i 216; i 0; i 0; i 0; i 0; i 0; i 0; i 0; i 0; i 0; i 0; i 0; i 0];
    [i 7130; i 1292; i 0; i 600; i (-100); q 10507 10000; i 100; i 1; i 1392; i 0; i 0; i 0; i 0; i 0; i 0; i 0; i 0; i 0; i 0; i 0; i 0];
    [i 7139; i 700; i 0; i 325; i (-125); q 10507 10000; i 100; i 1; i 800; i 0; i 0; i 0; i 0; i 0; i 0; i 0; i 0; i 0; i 0; i 0; i 0];
    [i 7166; i 553; i 0; i 300; i (-200); q 2029 2000; i 100; i 1; i 653; i 0; i 0; i 0; i 0; i 0; i 0; i 0; i 0; i 0; i 0; i 0; i 0];
    [i 9002; i 0; i 0; i 2; i (-2); q 1989 2000; i 100; i 1; i 100; i 0; i 0; i 0; i 0; i 0; i 0; i 0; i 0; i 0; i 0; i 0; i 0];
    [i 9051; i 0; i 0; q 347 20; q (-347) 20; i 1; i 100; i 1; i 100; i 0; i 0; i 0; i 0; i 0; i 0; i 0; i 0; i 0; i 0; i 0; i 0];
    [i 9053; i 0; i 0; q 1283 100; q (-64) 5; i 1; i 100; i 1; i 100; i 0; i 0; i 0; i 0; i 0; i 0; i 0; i 0; i 0; i 0; i 0; i 0];
    [i 9054; i 50; i 0; i 38; i (-38); i 1; i 100; i 1; i 150; i 0; i 0; i 0; i 0; i 0; i 0; i 0; i 0; i 0; i 0; i 0; i 0];
    [i 9055; i 8; i 0; i 6; i (-6); i 1; i 100; i 1; i 108; i 0; i 0; i 0; i 0; i 0; i 0; i 0; i 0; i 0; i 0; i 0; i 0]]
   [[i 37; i 9001; q 3 50000; q 23 50000; i 0; i 9900; i 0; i 75; q 5041 5000; i 0; i 1; i (-360); i 360];
    [i 9001; i 9005; q 1 1250; q 87 25000; i 0; i 9900; i 0; i 0; i 0; i 0; i 1; i (-360); i 360];
    [i 9001; i 9006; q 2439 100000; q 21841 50000; i 0; i 9900; i 0; i 0; q 2417 2500; i 0; i 1; i (-360); i 360];
    [i 9001; i 9012; q 453 12500; q 32449 50000; i 0; i 9900; i 0; i 0; q 2449 2500; i 0; i 1; i (-360); i 360];
    [i 9005; i 9051; q 789 50000; q 18743 50000; i 0; i 9900; i 0; i 0; q 2087 2000; i 0; i 1; i (-360); i 360];
    [i 9005; i 9052; q 789 50000; q 18743 50000; i 0; i 9900; i 0; i 0; q 9391 10000; i 0; i 1; i (-360); i 360];
    [i 9005; i 9053; q 801 50000; q 19023 50000; i 0; i 9900; i 0; i 0; q 2087 2000; i 0; i 1; i (-360); i 360];
    [i 9005; i 9054; i 0; q 19 125; i 0; i 9900; i 0; i 0; q 2087 2000; i 0; i 1; i (-360); i 360];
    [i 9005; i 9055; i 0; q 4 5; i 0; i 9900; i 0; i 0; q 2087 2000; i 0; i 1; i (-360); i 360];
    [i 9006; i 9007; q 2779 50000; q 12333 50000; i 0; i 9900; i 0; i 0; i 0; i 0; i 1; i (-360); i 360];
    [i 9006; i 9003; q 5559 50000; q 12333 25000; i 0; i 9900; i 0; i 0; i 0; i 0; i 1; i (-360); i 360];
    [i 9006; i 9003; q 5559 50000; q 12333 25000; i 0; i 9900; i 0; i 0; i 0; i 0; i 1; i (-360); i 360];
    [i 9012; i 9002; q 3811 50000; q 21643 50000; i 0; i 9900; i 0; i 0; i 0; i 0; i 1; i (-360); i 360];
    [i 9012; i 9002; q 3811 50000; q 21643 50000; i 0; i 9900; i 0; i 0; i 0; i 0; i 1; i (-360); i 360];
    [i 9002; i 9021; q 537 10000; q 3513 50000; i 0; i 9900; i 0; i 0; i 0; i 0; i 1; i (-360); i 360];
    [i 9021; i 9023; q 2767 2500; q 47639 50000; i 0; i 9900; i 0; i 0; i 0; i 0; i 1; i (-360); i 360];
    [i 9021; i 9022; q 11091 25000; q 3519 1250; i 0; i 9900; i 0; i 0; i 1; i 0; i 1; i (-360); i 360];
    [i 9002; i 9024; q 12687 25000; q 16101 5000; i 0; i 9900; i 0; i 0; i 1; i 0; i 1; i (-360); i 360];
    [i 9023; i 9025; q 2084 3125; q 493 125; i 0; i 9900; i 0; i 0; i 1; i 0; i 1; i (-360); i 360];
    [i 9023; i 9026; q 6113 10000; q 4519 1250; i 0; i 9900; i 0; i 0; i 1; i 0; i 1; i (-360); i 360];
    [i 9007; i 9071; q 1103 2500; q 7417 2500; i 0; i 9900; i 0; i 0; i 1; i 0; i 1; i (-360); i 360];
    [i 9007; i 9072; q 3849 12500; q 2057 1000; i 0; i 9900; i 0; i 0; i 1; i 0; i 1; i (-360); i 360];
    [i 9007; i 9003; q 279 5000; q 12333 50000; i 0; i 9900; i 0; i 0; i 0; i 0; i 1; i (-360); i 360];
    [i 9003; i 9031; q 73633 100000; q 11681 2500; i 0; i 9900; i 0; i 0; i 1; i 0; i 1; i (-360); i 360];
    [i 9003; i 9032; q 38489 50000; q 24423 5000; i 0; i 9900; i 0; i 0; i 1; i 0; i 1; i (-360); i 360];
    [i 9003; i 9033; q 18933 25000; q 6007 1250; i 0; i 9900; i 0; i 0; i 1; i 0; i 1; i (-360); i 360];
    [i 9003; i 9044; q 3689 50000; q 397 6250; i 0; i 9900; i 0; i 0; i 0; i 0; i 1; i (-360); i 360];
    [i 9044; i 9004; q 479 12500; q 1447 50000; i 0; i 9900; i 0; i 0; i 0; i 0; i 1; i (-360); i 360];
    [i 9004; i 9041; q 18307 50000; q 307 125; i 0; i 9900; i 0; i 0; i 1; i 0; i 1; i (-360); i 360];
    [i 9004; i 9042; q 10593 10000; q 6817 1250; i 0; i 9900; i 0; i 0; i 1; i 0; i 1; i (-360); i 360];
    [i 9004; i 9043; q 1567 10000; q 8497 5000; i 0; i 9900; i 0; i 0; i 1; i 0; i 1; i (-360); i 360];
    [i 9003; i 9034; q 6503 50000; q 1739 1250; i 0; i 9900; i 0; i 0; i 1; i 0; i 1; i (-360); i 360];
    [i 9003; i 9035; q 13621 25000; q 8643 2500; i 0; i 9900; i 0; i 0; i 1; i 0; i 1; i (-360); i 360];
    [i 9003; i 9036; q 7713 50000; q 16729 10000; i 0; i 9900; i 0; i 0; i 1; i 0; i 1; i (-360); i 360];
    [i 9003; i 9037; q 3849 10000; q 1607 625; i 0; i 9900; i 0; i 0; i 1; i 0; i 1; i (-360); i 360];
    [i 9003; i 9038; q 1103 2500; q 7417 2500; i 0; i 9900; i 0; i 0; i 1; i 0; i 1; i (-360); i 360];
    [i 9012; i 9121; q 736 3125; q 24759 25000; i 0; i 9900; i 0; i 0; i 0; i 0; i 1; i (-360); i 360];
    [i 9053; i 9533; i 0; q 3 4; i 0; i 9900; i 0; i 0; q 9583 10000; i 0; i 1; i (-360); i 360];
    [i 1; i 5; q 1 1000; q 3 500; i 0; i 9900; i 0; i 0; i 0; i 0; i 1; i (-360); i 360];
    [i 2; i 6; q 1 1000; q 9 1000; i 0; i 9900; i 0; i 0; i 0; i 0; i 1; i (-360); i 360];
    [i 2; i 8; q 3 500; q 27 1000; q 27 500; i 9900; i 0; i 0; i 0; i 0; i 1; i (-360); i 360];
    [i 3; i 7; i 0; q 3 1000; i 0; i 9900; i 0; i 0; i 0; i 0; i 1; i (-360); i 360];
    [i 3; i 19; q 1 125; q 69 1000; q 139 1000; i 9900; i 0; i 0; i 0; i 0; i 1; i (-360); i 360];
    [i 3; i 150; q 1 1000; q 7 1000; i 0; i 9900; i 0; i 0; i 0; i 0; i 1; i (-360); i 360];
    [i 4; i 16; q 1 500; q 19 1000; q 1127 1000; i 9900; i 0; i 0; i 0; i 0; i 1; i (-360); i 360];
    [i 5; i 9; q 3 500; q 29 1000; q 9 500; i 9900; i 0; i 0; i 0; i 0; i 1; i (-360); i 360];
    [i 7; i 12; q 1 1000; q 9 1000; q 7 100; i 9900; i 0; i 0; i 0; i 0; i 1; i (-360); i 360];
    [i 7; i 131; q 1 1000; q 7 1000; q 7 500; i 9900; i 0; i 0; i 0; i 0; i 1; i (-360); i 360];
    [i 8; i 11; q 13 1000; q 119 2000; q 33 1000; i 9900; i 0; i 0; i 0; i 0; i 1; i (-360); i 360];
    [i 8; i 14; q 13 1000; q 21 500; q 81 1000; i 9900; i 0; i 0; i 0; i 0; i 1; i (-360); i 360];
    [i 9; i 11; q 3 500; q 27 1000; q 13 1000; i 9900; i 0; i 0; i 0; i 0; i 1; i (-360); i 360];
    [i 11; i 13; q 1 125; q 17 500; q 9 500; i 9900; i 0; i 0; i 0; i 0; i 1; i (-360); i 360];
    [i 12; i 21; q 1 500; q 3 200; q 59 500; i 9900; i 0; i 0; i 0; i 0; i 1; i (-360); i 360];
    [i 13; i 20; q 3 500; q 17 500; q 2 125; i 9900; i 0; i 0; i 0; i 0; i 1; i (-360); i 360];
    [i 14; i 15; q 7 500; q 21 500; q 97 1000; i 9900; i 0; i 0; i 0; i 0; i 1; i (-360); i 360];
    [i 15; i 37; q 13 200; q 31 125; q 121 1000; i 9900; i 0; i 0; i 0; i 0; i 1; i (-360); i 360];
    [i 15; i 89; q 99 1000; q 31 125; q 7 200; i 9900; i 0; i 0; i 0; i 0; i 1; i (-360); i 360];
    [i 15; i 90; q 12 125; q 363 1000; q 6 125; i 9900; i 0; i 0; i 0; i 0; i 1; i (-360); i 360];
    [i 16; i 42; q 1 500; q 11 500; q 32 25; i 9900; i 0; i 0; i 0; i 0; i 1; i (-360); i 360];
    [i 19; i 21; q 1 500; q 9 500; q 9 250; i 9900; i 0; i 0; i 0; i 0; i 1; i (-360); i 360];
    [i 19; i 87; q 13 1000; q 2 25; q 151 1000; i 9900; i 0; i 0; i 0; i 0; i 1; i (-360); i 360];
    [i 20; i 22; q 2 125; q 33 1000; q 3 200; i 9900; i 0; i 0; i 0; i 0; i 1; i (-360); i 360];
    [i 20; i 27; q 69 1000; q 93 500; q 49 500; i 9900; i 0; i 0; i 0; i 0; i 1; i (-360); i 360];
    [i 21; i 24; q 1 250; q 17 500; q 7 25; i 9900; i 0; i 0; i 0; i 0; i 1; i (-360); i 360];
    [i 22; i 23; q 13 250; q 111 1000; q 1 20; i 9900; i 0; i 0; i 0; i 0; i 1; i (-360); i 360];
    [i 23; i 25; q 19 1000; q 39 1000; q 9 500; i 9900; i 0; i 0; i 0; i 0; i 1; i (-360); i 360];
    [i 24; i 319; q 7 1000; q 17 250; q 67 500; i 9900; i 0; i 0; i 0; i 0; i 1; i (-360); i 360];
    [i 25; i 26; q 9 250; q 71 1000; q 17 500; i 9900; i 0; i 0; i 0; i 0; i 1; i (-360); i 360];
    [i 26; i 27; q 9 200; q 3 25; q 13 200; i 9900; i 0; i 0; i 0; i 0; i 1; i (-360); i 360];
    [i 26; i 320; q 43 1000; q 13 100; q 7 500; i 9900; i 0; i 0; i 0; i 0; i 1; i (-360); i 360];
    [i 33; i 34; i 0; q 63 1000; i 0; i 9900; i 0; i 0; i 0; i 0; i 1; i (-360); i 360];
    [i 33; i 38; q 1 400; q 3 250; q 13 1000; i 9900; i 0; i 0; i 0; i 0; i 1; i (-360); i 360];
    [i 33; i 40; q 3 500; q 29 1000; q 1 50; i 9900; i 0; i 0; i 0; i 0; i 1; i (-360); i 360];
    [i 33; i 41; q 7 1000; q 43 1000; q 13 500; i 9900; i 0; i 0; i 0; i 0; i 1; i (-360); i 360];
    [i 34; i 42; q 1 1000; q 1 125; q 21 500; i 9900; i 0; i 0; i 0; i 0; i 1; i (-360); i 360];
    [i 35; i 72; q 3 250; q 3 50; q 1 125; i 9900; i 0; i 0; i 0; i 0; i 1; i (-360); i 360];
    [i 35; i 76; q 3 500; q 7 500; q 1 500; i 9900; i 0; i 0; i 0; i 0; i 1; i (-360); i 360];
    [i 35; i 77; q 1 100; q 29 1000; q 3 1000; i 9900; i 0; i 0; i 0; i 0; i 1; i (-360); i 360];
    [i 36; i 88; q 1 250; q 27 1000; q 43 1000; i 9900; i 0; i 0; i 0; i 0; i 1; i (-360); i 360];
    [i 37; i 38; q 1 125; q 47 1000; q 1 125; i 9900; i 0; i 0; i 0; i 0; i 1; i (-360); i 360];
    [i 37; i 40; q 11 500; q 8 125; q 7 1000; i 9900; i 0; i 0; i 0; i 0; i 1; i (-360); i 360];
    [i 37; i 41; q 1 100; q 9 250; q 1 50; i 9900; i 0; i 0; i 0; i 0; i 1; i (-360); i 360];
    [i 37; i 49; q 17 1000; q 81 1000; q 6 125; i 9900; i 0; i 0; i 0; i 0; i 1; i (-360); i 360];
    [i 37; i 89; q 51 500; q 127 500; q 33 1000; i 9900; i 0; i 0; i 0; i 0; i 1; i (-360); i 360];
    [i 37; i 90; q 47 1000; q 127 1000; q 2 125; i 9900; i 0; i 0; i 0; i 0; i 1; i (-360); i 360];
    [i 38; i 41; q 1 125; q 37 1000; q 1 50; i 9900; i 0; i 0; i 0; i 0; i 1; i (-360); i 360];
    [i 38; i 43; q 4 125; q 87 1000; q 1 25; i 9900; i 0; i 0; i 0; i 0; i 1; i (-360); i 360];
    [i 39; i 42; q 3 5000; q 4 625; q 101 250; i 9900; i 0; i 0; i 0; i 0; i 1; i (-360); i 360];
    [i 40; i 48; q 13 500; q 77 500; q 11 500; i 9900; i 0; i 0; i 0; i 0; i 1; i (-360); i 360];
    [i 41; i 42; i 0; q 29 1000; i 0; i 9900; i 0; i 0; i 0; i 0; i 1; i (-360); i 360];
    [i 41; i 49; q 13 200; q 191 1000; q 1 50; i 9900; i 0; i 0; i 0; i 0; i 1; i (-360); i 360];
    [i 41; i 51; q 31 1000; q 89 1000; q 9 250; i 9900; i 0; i 0; i 0; i 0; i 1; i (-360); i 360];
    [i 42; i 46; q 1 500; q 7 500; q 403 500; i 9900; i 0; i 0; i 0; i 0; i 1; i (-360); i 360];
    [i 43; i 44; q 13 500; q 9 125; q 7 200; i 9900; i 0; i 0; i 0; i 0; i 1; i (-360); i 360];
    [i 43; i 48; q 19 200; q 131 500; q 4 125; i 9900; i 0; i 0; i 0; i 0; i 1; i (-360); i 360];
    [i 43; i 53; q 13 1000; q 39 1000; q 2 125; i 9900; i 0; i 0; i 0; i 0; i 1; i (-360); i 360];
    [i 44; i 47; q 27 1000; q 21 250; q 39 1000; i 9900; i 0; i 0; i 0; i 0; i 1; i (-360); i 360];
    [i 44; i 54; q 7 250; q 21 250; q 37 1000; i 9900; i 0; i 0; i 0; i 0; i 1; i (-360); i 360];
    [i 45; i 60; q 7 1000; q 41 1000; q 39 125; i 9900; i 0; i 0; i 0; i 0; i 1; i (-360); i 360];
    [i 45; i 74; q 9 1000; q 27 500; q 411 1000; i 9900; i 0; i 0; i 0; i 0; i 1; i (-360); i 360];
    [i 46; i 81; q 1 200; q 21 500; q 69 100; i 9900; i 0; i 0; i 0; i 0; i 1; i (-360); i 360];
    [i 47; i 73; q 13 250; q 29 200; q 73 1000; i 9900; i 0; i 0; i 0; i 0; i 1; i (-360); i 360];
    [i 47; i 113; q 43 1000; q 59 500; q 13 1000; i 9900; i 0; i 0; i 0; i 0; i 1; i (-360); i 360];
    [i 48; i 107; q 1 40; q 31 500; q 7 1000; i 9900; i 0; i 0; i 0; i 0; i 1; i (-360); i 360];
    [i 49; i 51; q 31 1000; q 47 500; q 43 1000; i 9900; i 0; i 0; i 0; i 0; i 1; i (-360); i 360];
    [i 51; i 52; q 37 1000; q 109 1000; q 49 1000; i 9900; i 0; i 0; i 0; i 0; i 1; i (-360); i 360];
    [i 52; i 55; q 27 1000; q 2 25; q 9 250; i 9900; i 0; i 0; i 0; i 0; i 1; i (-360); i 360];
    [i 53; i 54; q 1 40; q 73 1000; q 7 200; i 9900; i 0; i 0; i 0; i 0; i 1; i (-360); i 360];
    [i 54; i 55; q 7 200; q 103 1000; q 47 1000; i 9900; i 0; i 0; i 0; i 0; i 1; i (-360); i 360];
    [i 55; i 57; q 13 200; q 169 1000; q 41 500; i 9900; i 0; i 0; i 0; i 0; i 1; i (-360); i 360];
    [i 57; i 58; q 23 500; q 2 25; q 9 250; i 9900; i 0; i 0; i 0; i 0; i 1; i (-360); i 360];
    [i 57; i 63; q 159 1000; q 537 1000; q 71 1000; i 9900; i 0; i 0; i 0; i 0; i 1; i (-360); i 360];
    [i 58; i 59; q 9 1000; q 13 500; q 1 200; i 9900; i 0; i 0; i 0; i 0; i 1; i (-360); i 360];
    [i 59; i 61; q 1 500; q 13 1000; q 3 200; i 9900; i 0; i 0; i 0; i 0; i 1; i (-360); i 360];
    [i 60; i 62; q 9 1000; q 13 200; q 97 200; i 9900; i 0; i 0; i 0; i 0; i 1; i (-360); i 360];
    [i 62; i 64; q 2 125; q 21 200; q 203 1000; i 9900; i 0; i 0; i 0; i 0; i 1; i (-360); i 360];
    [i 62; i 144; q 1 1000; q 7 1000; q 13 1000; i 9900; i 0; i 0; i 0; i 0; i 1; i (-360); i 360];
    [i 63; i 526; q 53 2000; q 43 250; q 13 500; i 9900; i 0; i 0; i 0; i 0; i 1; i (-360); i 360];
    [i 69; i 211; q 51 1000; q 29 125; q 7 250; i 9900; i 0; i 0; i 0; i 0; i 1; i (-360); i 360];
    [i 69; i 79; q 51 1000; q 157 1000; q 23 1000; i 9900; i 0; i 0; i 0; i 0; i 1; i (-360); i 360];
    [i 70; i 71; q 4 125; q 1 10; q 31 500; i 9900; i 0; i 0; i 0; i 0; i 1; i (-360); i 360];
    [i 70; i 528; q 1 50; q 617 5000; q 7 250; i 9900; i 0; i 0; i 0; i 0; i 1; i (-360); i 360];
    [i 71; i 72; q 9 250; q 131 1000; q 17 250; i 9900; i 0; i 0; i 0; i 0; i 1; i (-360); i 360];
    [i 71; i 73; q 17 500; q 99 1000; q 47 1000; i 9900; i 0; i 0; i 0; i 0; i 1; i (-360); i 360];
    [i 72; i 77; q 9 500; q 87 1000; q 11 1000; i 9900; i 0; i 0; i 0; i 0; i 1; i (-360); i 360];
    [i 72; i 531; q 16 625; q 193 1000; i 0; i 9900; i 0; i 0; i 0; i 0; i 1; i (-360); i 360];
    [i 73; i 76; q 21 1000; q 57 1000; q 3 100; i 9900; i 0; i 0; i 0; i 0; i 1; i (-360); i 360];
    [i 73; i 79; q 9 500; q 13 250; q 9 500; i 9900; i 0; i 0; i 0; i 0; i 1; i (-360); i 360];
    [i 74; i 88; q 1 250; q 27 1000; q 1 20; i 9900; i 0; i 0; i 0; i 0; i 1; i (-360); i 360];
    [i 74; i 562; q 143 5000; q 2013 10000; q 379 1000; i 9900; i 0; i 0; i 0; i 0; i 1; i (-360); i 360];
    [i 76; i 77; q 2 125; q 43 1000; q 1 250; i 9900; i 0; i 0; i 0; i 0; i 1; i (-360); i 360];
    [i 77; i 78; q 1 1000; q 3 500; q 7 1000; i 9900; i 0; i 0; i 0; i 0; i 1; i (-360); i 360];
    [i 77; i 80; q 7 500; q 7 100; q 19 500; i 9900; i 0; i 0; i 0; i 0; i 1; i (-360); i 360];
    [i 77; i 552; q 891 10000; q 669 2500; q 29 1000; i 9900; i 0; i 0; i 0; i 0; i 1; i (-360); i 360];
    [i 77; i 609; q 391 5000; q 2127 10000; q 11 500; i 9900; i 0; i 0; i 0; i 0; i 1; i (-360); i 360];
    [i 78; i 79; q 3 500; q 11 500; q 11 1000; i 9900; i 0; i 0; i 0; i 0; i 1; i (-360); i 360];
    [i 78; i 84; i 0; q 9 250; i 0; i 9900; i 0; i 0; i 0; i 0; i 1; i (-360); i 360];
    [i 79; i 211; q 99 1000; q 3 8; q 51 1000; i 9900; i 0; i 0; i 0; i 0; i 1; i (-360); i 360];
    [i 80; i 211; q 11 500; q 107 1000; q 29 500; i 9900; i 0; i 0; i 0; i 0; i 1; i (-360); i 360];
    [i 81; i 194; q 7 2000; q 33 1000; q 53 100; i 9900; i 0; i 0; i 0; i 0; i 1; i (-360); i 360];
    [i 81; i 195; q 7 2000; q 33 1000; q 53 100; i 9900; i 0; i 0; i 0; i 0; i 1; i (-360); i 360];
    [i 85; i 86; q 1 125; q 8 125; q 16 125; i 9900; i 0; i 0; i 0; i 0; i 1; i (-360); i 360];
    [i 86; i 87; q 3 250; q 93 1000; q 183 1000; i 9900; i 0; i 0; i 0; i 0; i 1; i (-360); i 360];
    [i 86; i 323; q 3 500; q 6 125; q 23 250; i 9900; i 0; i 0; i 0; i 0; i 1; i (-360); i 360];
    [i 89; i 91; q 47 1000; q 119 1000; q 7 500; i 9900; i 0; i 0; i 0; i 0; i 1; i (-360); i 360];
    [i 90; i 92; q 4 125; q 87 500; q 3 125; i 9900; i 0; i 0; i 0; i 0; i 1; i (-360); i 360];
    [i 91; i 94; q 1 10; q 253 1000; q 31 1000; i 9900; i 0; i 0; i 0; i 0; i 1; i (-360); i 360];
    [i 91; i 97; q 11 500; q 77 1000; q 39 1000; i 9900; i 0; i 0; i 0; i 0; i 1; i (-360); i 360];
    [i 92; i 103; q 19 1000; q 18 125; q 17 1000; i 9900; i 0; i 0; i 0; i 0; i 1; i (-360); i 360];
    [i 92; i 105; q 17 1000; q 23 250; q 3 250; i 9900; i 0; i 0; i 0; i 0; i 1; i (-360); i 360];
    [i 94; i 97; q 139 500; q 427 1000; q 43 1000; i 9900; i 0; i 0; i 0; i 0; i 1; i (-360); i 360];
    [i 97; i 100; q 11 500; q 53 1000; q 7 1000; i 9900; i 0; i 0; i 0; i 0; i 1; i (-360); i 360];
    [i 97; i 102; q 19 500; q 23 250; q 3 250; i 9900; i 0; i 0; i 0; i 0; i 1; i (-360); i 360];
    [i 97; i 103; q 6 125; q 61 500; q 3 200; i 9900; i 0; i 0; i 0; i 0; i 1; i (-360); i 360];
    [i 98; i 100; q 3 125; q 8 125; q 7 1000; i 9900; i 0; i 0; i 0; i 0; i 1; i (-360); i 360];
    [i 98; i 102; q 17 500; q 121 1000; q 3 200; i 9900; i 0; i 0; i 0; i 0; i 1; i (-360); i 360];
    [i 99; i 107; q 53 1000; q 27 200; q 17 1000; i 9900; i 0; i 0; i 0; i 0; i 1; i (-360); i 360];
    [i 99; i 108; q 1 500; q 1 250; q 1 500; i 9900; i 0; i 0; i 0; i 0; i 1; i (-360); i 360];
    [i 99; i 109; q 9 200; q 177 500; q 11 250; i 9900; i 0; i 0; i 0; i 0; i 1; i (-360); i 360];
    [i 99; i 110; q 1 20; q 87 500; q 11 500; i 9900; i 0; i 0; i 0; i 0; i 1; i (-360); i 360];
    [i 100; i 102; q 2 125; q 19 500; q 1 250; i 9900; i 0; i 0; i 0; i 0; i 1; i (-360); i 360];
    [i 102; i 104; q 43 1000; q 8 125; q 27 1000; i 9900; i 0; i 0; i 0; i 0; i 1; i (-360); i 360];
    [i 103; i 105; q 19 1000; q 31 500; q 1 125; i 9900; i 0; i 0; i 0; i 0; i 1; i (-360); i 360];
    [i 104; i 108; q 19 250; q 13 100; q 11 250; i 9900; i 0; i 0; i 0; i 0; i 1; i (-360); i 360];
    [i 104; i 322; q 11 250; q 31 250; q 3 200; i 9900; i 0; i 0; i 0; i 0; i 1; i (-360); i 360];
    [i 105; i 107; q 3 250; q 11 125; q 11 1000; i 9900; i 0; i 0; i 0; i 0; i 1; i (-360); i 360];
    [i 105; i 110; q 157 1000; q 2 5; q 47 1000; i 9900; i 0; i 0; i 0; i 0; i 1; i (-360); i 360];
    [i 108; i 324; q 37 500; q 26 125; q 13 500; i 9900; i 0; i 0; i 0; i 0; i 1; i (-360); i 360];
    [i 109; i 110; q 7 100; q 23 125; q 21 1000; i 9900; i 0; i 0; i 0; i 0; i 1; i (-360); i 360];
    [i 109; i 113; q 1 10; q 137 500; q 31 1000; i 9900; i 0; i 0; i 0; i 0; i 1; i (-360); i 360];
    [i 109; i 114; q 109 1000; q 393 1000; q 9 250; i 9900; i 0; i 0; i 0; i 0; i 1; i (-360); i 360];
    [i 110; i 112; q 71 500; q 101 250; q 1 20; i 9900; i 0; i 0; i 0; i 0; i 1; i (-360); i 360];
    [i 112; i 114; q 17 1000; q 21 500; q 3 500; i 9900; i 0; i 0; i 0; i 0; i 1; i (-360); i 360];
    [i 115; i 122; q 9 2500; q 199 10000; q 1 250; i 9900; i 0; i 0; i 0; i 0; i 1; i (-360); i 360];
    [i 116; i 120; q 1 500; q 1049 10000; q 1 1000; i 9900; i 0; i 0; i 0; i 0; i 1; i (-360); i 360];
    [i 117; i 118; q 1 10000; q 9 5000; q 17 1000; i 9900; i 0; i 0; i 0; i 0; i 1; i (-360); i 360];
    [i 118; i 119; i 0; q 271 10000; i 0; i 9900; i 0; i 0; i 0; i 0; i 1; i (-360); i 360];
    [i 118; i 1201; i 0; q 6163 10000; i 0; i 9900; i 0; i 0; i 0; i 0; i 1; i (-360); i 360];
    [i 1201; i 120; i 0; q (-3697) 10000; i 0; i 9900; i 0; i 0; i 0; i 0; i 1; i (-360); i 360];
    [i 118; i 121; q 11 5000; q 583 2000; i 0; i 9900; i 0; i 0; i 0; i 0; i 1; i (-360); i 360];
    [i 119; i 120; i 0; q 339 10000; i 0; i 9900; i 0; i 0; i 0; i 0; i 1; i (-360); i 360];
    [i 119; i 121; i 0; q 291 5000; i 0; i 9900; i 0; i 0; i 0; i 0; i 1; i (-360); i 360];
    [i 122; i 123; q 101 1250; q 293 1250; q 29 1000; i 9900; i 0; i 0; i 0; i 0; i 1; i (-360); i 360];
    [i 122; i 125; q 193 2000; q 3669 10000; q 27 500; i 9900; i 0; i 0; i 0; i 0; i 1; i (-360); i 360];
    [i 123; i 124; q 9 250; q 269 2500; q 117 1000; i 9900; i 0; i 0; i 0; i 0; i 1; i (-360); i 360];
    [i 123; i 125; q 119 2500; q 707 5000; q 149 1000; i 9900; i 0; i 0; i 0; i 0; i 1; i (-360); i 360];
    [i 125; i 126; q 3 5000; q 197 10000; i 0; i 9900; i 0; i 0; i 0; i 0; i 1; i (-360); i 360];
    [i 126; i 127; q 59 10000; q 81 2000; q 1 4; i 9900; i 0; i 0; i 0; i 0; i 1; i (-360); i 360];
    [i 126; i 129; q 23 2000; q 553 5000; q 37 200; i 9900; i 0; i 0; i 0; i 0; i 1; i (-360); i 360];
    [i 126; i 132; q 99 5000; q 211 1250; q 321 1000; i 9900; i 0; i 0; i 0; i 0; i 1; i (-360); i 360];
    [i 126; i 157; q 1 200; q 1 20; q 33 100; i 9900; i 0; i 0; i 0; i 0; i 1; i (-360); i 360];
    [i 126; i 158; q 77 10000; q 269 5000; q 67 200; i 9900; i 0; i 0; i 0; i 0; i 1; i (-360); i 360];
    [i 126; i 169; q 33 2000; q 1157 10000; q 171 1000; i 9900; i 0; i 0; i 0; i 0; i 1; i (-360); i 360];
    [i 127; i 128; q 59 10000; q 577 10000; q 19 200; i 9900; i 0; i 0; i 0; i 0; i 1; i (-360); i 360];
    [i 127; i 134; q 49 10000; q 21 625; q 26 125; i 9900; i 0; i 0; i 0; i 0; i 1; i (-360); i 360];
    [i 127; i 168; q 59 10000; q 577 10000; q 19 200; i 9900; i 0; i 0; i 0; i 0; i 1; i (-360); i 360];
    [i 128; i 130; q 39 5000; q 773 10000; q 63 500; i 9900; i 0; i 0; i 0; i 0; i 1; i (-360); i 360];
    [i 128; i 133; q 13 5000; q 193 10000; q 3 100; i 9900; i 0; i 0; i 0; i 0; i 1; i (-360); i 360];
    [i 129; i 130; q 19 2500; q 47 625; q 61 500; i 9900; i 0; i 0; i 0; i 0; i 1; i (-360); i 360];
    [i 129; i 133; q 21 10000; q 93 5000; q 3 100; i 9900; i 0; i 0; i 0; i 0; i 1; i (-360); i 360];
    [i 130; i 132; q 1 625; q 41 2500; q 13 500; i 9900; i 0; i 0; i 0; i 0; i 1; i (-360); i 360];
    [i 130; i 151; q 17 10000; q 33 2000; q 13 500; i 9900; i 0; i 0; i 0; i 0; i 1; i (-360); i 360];
    [i 130; i 167; q 79 10000; q 793 10000; q 127 1000; i 9900; i 0; i 0; i 0; i 0; i 1; i (-360); i 360];
    [i 130; i 168; q 39 5000; q 49 625; q 1 8; i 9900; i 0; i 0; i 0; i 0; i 1; i (-360); i 360];
    [i 133; i 137; q 17 10000; q 117 10000; q 289 1000; i 9900; i 0; i 0; i 0; i 0; i 1; i (-360); i 360];
    [i 133; i 168; q 13 5000; q 193 10000; q 3 100; i 9900; i 0; i 0; i 0; i 0; i 1; i (-360); i 360];
    [i 133; i 169; q 21 10000; q 93 5000; q 3 100; i 9900; i 0; i 0; i 0; i 0; i 1; i (-360); i 360];
    [i 133; i 171; q 1 5000; q 101 10000; i 0; i 9900; i 0; i 0; i 0; i 0; i 1; i (-360); i 360];
    [i 134; i 135; q 43 10000; q 293 10000; q 9 50; i 9900; i 0; i 0; i 0; i 0; i 1; i (-360); i 360];
    [i 134; i 184; q 39 10000; q 381 10000; q 129 500; i 9900; i 0; i 0; i 0; i 0; i 1; i (-360); i 360];
    [i 135; i 136; q 91 10000; q 623 10000; q 77 200; i 9900; i 0; i 0; i 0; i 0; i 1; i (-360); i 360];
    [i 136; i 137; q 1 80; q 89 1000; q 27 50; i 9900; i 0; i 0; i 0; i 0; i 1; i (-360); i 360];
    [i 136; i 152; q 7 1250; q 39 1000; q 953 1000; i 9900; i 0; i 0; i 0; i 0; i 1; i (-360); i 360];
    [i 137; i 140; q 3 2000; q 57 5000; q 71 250; i 9900; i 0; i 0; i 0; i 0; i 1; i (-360); i 360];
    [i 137; i 181; q 1 2000; q 17 5000; q 21 1000; i 9900; i 0; i 0; i 0; i 0; i 1; i (-360); i 360];
    [i 137; i 186; q 7 10000; q 151 10000; q 63 500; i 9900; i 0; i 0; i 0; i 0; i 1; i (-360); i 360];
    [i 137; i 188; q 1 2000; q 17 5000; q 21 1000; i 9900; i 0; i 0; i 0; i 0; i 1; i (-360); i 360];
    [i 139; i 172; q 281 5000; q 281 1250; q 81 1000; i 9900; i 0; i 0; i 0; i 0; i 1; i (-360); i 360];
    [i 140; i 141; q 3 250; q 209 2500; q 123 1000; i 9900; i 0; i 0; i 0; i 0; i 1; i (-360); i 360];
    [i 140; i 142; q 19 1250; q 283 2500; q 171 250; i 9900; i 0; i 0; i 0; i 0; i 1; i (-360); i 360];
    [i 140; i 145; q 117 2500; q 3369 10000; q 519 1000; i 9900; i 0; i 0; i 0; i 0; i 1; i (-360); i 360];
    [i 140; i 146; q 43 1000; q 3031 10000; q 463 1000; i 9900; i 0; i 0; i 0; i 0; i 1; i (-360); i 360];
    [i 140; i 147; q 489 10000; q 873 2500; q 269 500; i 9900; i 0; i 0; i 0; i 0; i 1; i (-360); i 360];
    [i 140; i 182; q 13 10000; q 89 10000; q 119 1000; i 9900; i 0; i 0; i 0; i 0; i 1; i (-360); i 360];
    [i 141; i 146; q 291 10000; q 2267 10000; q 171 500; i 9900; i 0; i 0; i 0; i 0; i 1; i (-360); i 360];
    [i 142; i 143; q 3 500; q 57 1000; q 767 1000; i 9900; i 0; i 0; i 0; i 0; i 1; i (-360); i 360];
    [i 143; i 145; q 3 400; q 773 10000; q 119 1000; i 9900; i 0; i 0; i 0; i 0; i 1; i (-360); i 360];
    [i 143; i 149; q 127 10000; q 909 10000; q 27 200; i 9900; i 0; i 0; i 0; i 0; i 1; i (-360); i 360];
    [i 145; i 146; q 17 2000; q 147 2500; q 87 1000; i 9900; i 0; i 0; i 0; i 0; i 1; i (-360); i 360];
    [i 145; i 149; q 109 5000; q 1511 10000; q 223 1000; i 9900; i 0; i 0; i 0; i 0; i 1; i (-360); i 360];
    [i 146; i 147; q 73 10000; q 63 1250; q 37 500; i 9900; i 0; i 0; i 0; i 0; i 1; i (-360); i 360];
    [i 148; i 178; q 523 10000; q 763 5000; q 37 500; i 9900; i 0; i 0; i 0; i 0; i 1; i (-360); i 360];
    [i 148; i 179; q 1371 10000; q 3919 10000; q 19 250; i 9900; i 0; i 0; i 0; i 0; i 1; i (-360); i 360];
    [i 152; i 153; q 137 10000; q 957 10000; q 141 1000; i 9900; i 0; i 0; i 0; i 0; i 1; i (-360); i 360];
    [i 153; i 161; q 11 2000; q 18 625; q 19 100; i 9900; i 0; i 0; i 0; i 0; i 1; i (-360); i 360];
    [i 154; i 156; q 873 5000; q 3161 10000; q 1 25; i 9900; i 0; i 0; i 0; i 0; i 1; i (-360); i 360];
    [i 154; i 183; q 201 2500; q 1527 5000; q 9 200; i 9900; i 0; i 0; i 0; i 0; i 1; i (-360); i 360];
    [i 155; i 161; q 11 1000; q 71 1250; q 97 250; i 9900; i 0; i 0; i 0; i 0; i 1; i (-360); i 360];
    [i 157; i 159; q 1 1250; q 49 5000; q 69 1000; i 9900; i 0; i 0; i 0; i 0; i 1; i (-360); i 360];
    [i 158; i 159; q 29 10000; q 57 2000; q 19 100; i 9900; i 0; i 0; i 0; i 0; i 1; i (-360); i 360];
    [i 158; i 160; q 33 5000; q 28 625; q 277 1000; i 9900; i 0; i 0; i 0; i 0; i 1; i (-360); i 360];
    [i 162; i 164; q 3 1250; q 163 5000; q 59 250; i 9900; i 0; i 0; i 0; i 0; i 1; i (-360); i 360];
    [i 162; i 165; q 9 5000; q 49 2000; q 831 500; i 9900; i 0; i 0; i 0; i 0; i 1; i (-360); i 360];
    [i 163; i 164; q 11 2500; q 257 5000; q 3597 1000; i 9900; i 0; i 0; i 0; i 0; i 1; i (-360); i 360];
    [i 165; i 166; q 1 5000; q 123 10000; i 0; i 9900; i 0; i 0; i 0; i 0; i 1; i (-360); i 360];
    [i 167; i 169; q 9 5000; q 89 5000; q 29 1000; i 9900; i 0; i 0; i 0; i 0; i 1; i (-360); i 360];
    [i 172; i 173; q 669 10000; q 4843 10000; q 63 1000; i 9900; i 0; i 0; i 0; i 0; i 1; i (-360); i 360];
    [i 172; i 174; q 279 5000; q 221 1000; q 31 1000; i 9900; i 0; i 0; i 0; i 0; i 1; i (-360); i 360];
    [i 173; i 174; q 807 10000; q 3331 10000; q 49 1000; i 9900; i 0; i 0; i 0; i 0; i 1; i (-360); i 360];
    [i 173; i 175; q 739 10000; q 3071 10000; q 43 1000; i 9900; i 0; i 0; i 0; i 0; i 1; i (-360); i 360];
    [i 173; i 176; q 1799 10000; q 5017 10000; q 69 1000; i 9900; i 0; i 0; i 0; i 0; i 1; i (-360); i 360];
    [i 175; i 176; q 113 1250; q 1813 5000; q 6 125; i 9900; i 0; i 0; i 0; i 0; i 1; i (-360); i 360];
    [i 175; i 179; q 77 1000; q 773 2500; q 27 500; i 9900; i 0; i 0; i 0; i 0; i 1; i (-360); i 360];
    [i 176; i 177; q 251 10000; q 829 10000; q 47 1000; i 9900; i 0; i 0; i 0; i 0; i 1; i (-360); i 360];
    [i 177; i 178; q 111 5000; q 847 10000; q 1 20; i 9900; i 0; i 0; i 0; i 0; i 1; i (-360); i 360];
    [i 178; i 179; q 249 5000; q 371 2000; q 29 1000; i 9900; i 0; i 0; i 0; i 0; i 1; i (-360); i 360];
    [i 178; i 180; q 61 10000; q 29 1000; q 21 250; i 9900; i 0; i 0; i 0; i 0; i 1; i (-360); i 360];
    [i 181; i 138; q 1 2500; q 101 5000; i 0; i 9900; i 0; i 0; i 0; i 0; i 1; i (-360); i 360];
    [i 181; i 187; q 1 2500; q 83 10000; q 23 200; i 9900; i 0; i 0; i 0; i 0; i 1; i (-360); i 360];
    [i 184; i 185; q 1 400; q 49 2000; q 41 250; i 9900; i 0; i 0; i 0; i 0; i 1; i (-360); i 360];
    [i 186; i 188; q 7 10000; q 43 5000; q 23 200; i 9900; i 0; i 0; i 0; i 0; i 1; i (-360); i 360];
    [i 187; i 188; q 7 10000; q 43 5000; q 23 200; i 9900; i 0; i 0; i 0; i 0; i 1; i (-360); i 360];
    [i 188; i 138; q 1 2500; q 101 5000; i 0; i 9900; i 0; i 0; i 0; i 0; i 1; i (-360); i 360];
    [i 189; i 208; q 33 1000; q 19 200; i 0; i 9900; i 0; i 0; i 0; i 0; i 1; i (-360); i 360];
    [i 189; i 209; q 23 500; q 69 1000; i 0; i 9900; i 0; i 0; i 0; i 0; i 1; i (-360); i 360];
    [i 190; i 231; q 1 2500; q 11 5000; q 31 5; i 9900; i 0; i 0; i 0; i 0; i 1; i (-360); i 360];
    [i 190; i 240; i 0; q 11 400; i 0; i 9900; i 0; i 0; i 0; i 0; i 1; i (-360); i 360];
    [i 191; i 192; q 3 1000; q 6 125; i 0; i 9900; i 0; i 0; i 0; i 0; i 1; i (-360); i 360];
    [i 192; i 225; q 1 500; q 9 1000; i 0; i 9900; i 0; i 0; i 0; i 0; i 1; i (-360); i 360];
    [i 193; i 205; q 9 200; q 63 1000; i 0; i 9900; i 0; i 0; i 0; i 0; i 1; i (-360); i 360];
    [i 193; i 208; q 6 125; q 127 1000; i 0; i 9900; i 0; i 0; i 0; i 0; i 1; i (-360); i 360];
    [i 194; i 219; q 31 10000; q 143 5000; q 1 2; i 9900; i 0; i 0; i 0; i 0; i 1; i (-360); i 360];
    [i 194; i 664; q 3 1250; q 71 2000; q 9 25; i 9900; i 0; i 0; i 0; i 0; i 1; i (-360); i 360];
    [i 195; i 219; q 31 10000; q 143 5000; q 1 2; i 9900; i 0; i 0; i 0; i 0; i 1; i (-360); i 360];
    [i 196; i 197; q 7 500; q 1 25; q 1 250; i 9900; i 0; i 0; i 0; i 0; i 1; i (-360); i 360];
    [i 196; i 210; q 3 100; q 81 1000; q 1 100; i 9900; i 0; i 0; i 0; i 0; i 1; i (-360); i 360];
    [i 197; i 198; q 1 100; q 3 50; q 9 1000; i 9900; i 0; i 0; i 0; i 0; i 1; i (-360); i 360];
    [i 197; i 211; q 3 200; q 1 25; q 3 500; i 9900; i 0; i 0; i 0; i 0; i 1; i (-360); i 360];
    [i 198; i 202; q 83 250; q 86 125; i 0; i 9900; i 0; i 0; i 0; i 0; i 1; i (-360); i 360];
    [i 198; i 203; q 9 1000; q 23 500; q 1 40; i 9900; i 0; i 0; i 0; i 0; i 1; i (-360); i 360];
    [i 198; i 210; q 1 50; q 73 1000; q 1 125; i 9900; i 0; i 0; i 0; i 0; i 1; i (-360); i 360];
    [i 198; i 211; q 17 500; q 109 1000; q 4 125; i 9900; i 0; i 0; i 0; i 0; i 1; i (-360); i 360];
    [i 199; i 200; q 19 250; q 27 200; q 9 1000; i 9900; i 0; i 0; i 0; i 0; i 1; i (-360); i 360];
    [i 199; i 210; q 1 25; q 51 500; q 1 200; i 9900; i 0; i 0; i 0; i 0; i 1; i (-360); i 360];
    [i 200; i 210; q 81 1000; q 16 125; q 7 500; i 9900; i 0; i 0; i 0; i 0; i 1; i (-360); i 360];
    [i 201; i 204; q 31 250; q 183 1000; i 0; i 9900; i 0; i 0; i 0; i 0; i 1; i (-360); i 360];
    [i 203; i 211; q 1 100; q 59 1000; q 1 125; i 9900; i 0; i 0; i 0; i 0; i 1; i (-360); i 360];
    [i 204; i 205; q 23 500; q 17 250; i 0; i 9900; i 0; i 0; i 0; i 0; i 1; i (-360); i 360];
    [i 205; i 206; q 151 500; q 223 500; i 0; i 9900; i 0; i 0; i 0; i 0; i 1; i (-360); i 360];
    [i 206; i 207; q 73 1000; q 93 1000; i 0; i 9900; i 0; i 0; i 0; i 0; i 1; i (-360); i 360];
    [i 206; i 208; q 6 25; q 421 1000; i 0; i 9900; i 0; i 0; i 0; i 0; i 1; i (-360); i 360];
    [i 212; i 215; q 139 10000; q 389 5000; q 43 500; i 9900; i 0; i 0; i 0; i 0; i 1; i (-360); i 360];
    [i 213; i 214; q 1 400; q 19 500; i 0; i 9900; i 0; i 0; i 1; i 0; i 1; i (-360); i 360];
    [i 214; i 215; q 17 10000; q 37 2000; q 1 50; i 9900; i 0; i 0; i 0; i 0; i 1; i (-360); i 360];
    [i 214; i 242; q 3 2000; q 27 2500; q 1 500; i 9900; i 0; i 0; i 0; i 0; i 1; i (-360); i 360];
    [i 215; i 216; q 9 2000; q 249 10000; q 13 500; i 9900; i 0; i 0; i 0; i 0; i 1; i (-360); i 360];
    [i 216; i 217; q 1 250; q 497 10000; q 9 500; i 9900; i 0; i 0; i 0; i 0; i 1; i (-360); i 360];
    [i 217; i 218; i 0; q 57 1250; i 0; i 9900; i 0; i 0; i 0; i 0; i 1; i (-360); i 360];
    [i 217; i 219; q 1 2000; q 177 10000; q 1 50; i 9900; i 0; i 0; i 0; i 0; i 1; i (-360); i 360];
    [i 217; i 220; q 27 10000; q 79 2000; q 104 125; i 9900; i 0; i 0; i 0; i 0; i 1; i (-360); i 360];
    [i 219; i 237; q 3 10000; q 9 5000; q 26 5; i 9900; i 0; i 0; i 0; i 0; i 1; i (-360); i 360];
    [i 220; i 218; q 37 10000; q 121 2500; q 43 100; i 9900; i 0; i 0; i 0; i 0; i 1; i (-360); i 360];
    [i 220; i 221; q 1 1000; q 59 2000; q 503 1000; i 9900; i 0; i 0; i 0; i 0; i 1; i (-360); i 360];
    [i 220; i 238; q 1 625; q 23 5000; q 201 500; i 9900; i 0; i 0; i 0; i 0; i 1; i (-360); i 360];
    [i 221; i 223; q 3 10000; q 13 10000; i 1; i 9900; i 0; i 0; i 0; i 0; i 1; i (-360); i 360];
    [i 222; i 237; q 7 5000; q 257 5000; q 33 100; i 9900; i 0; i 0; i 1; i 0; i 1; i (-360); i 360];
    [i 224; i 225; q 1 100; q 8 125; q 12 25; i 9900; i 0; i 0; i 0; i 0; i 1; i (-360); i 360];
    [i 224; i 226; q 19 10000; q 81 10000; q 43 50; i 9900; i 0; i 0; i 0; i 0; i 1; i (-360); i 360];
    [i 225; i 191; q 1 1000; q 61 1000; i 0; i 9900; i 0; i 0; i 0; i 0; i 1; i (-360); i 360];
    [i 226; i 231; q 1 2000; q 53 2500; i 0; i 9900; i 0; i 0; i 0; i 0; i 1; i (-360); i 360];
    [i 227; i 231; q 9 10000; q 59 1250; q 93 500; i 9900; i 0; i 0; i 1; i 0; i 1; i (-360); i 360];
    [i 228; i 229; q 19 10000; q 87 10000; q 32 25; i 9900; i 0; i 0; i 0; i 0; i 1; i (-360); i 360];
    [i 228; i 231; q 13 5000; q 917 10000; i 0; i 9900; i 0; i 0; i 0; i 0; i 1; i (-360); i 360];
    [i 228; i 234; q 13 10000; q 18 625; q 81 100; i 9900; i 0; i 0; i 0; i 0; i 1; i (-360); i 360];
    [i 229; i 190; i 0; q 313 5000; i 0; i 9900; i 0; i 0; i 0; i 0; i 1; i (-360); i 360];
    [i 231; i 232; q 1 5000; q 69 10000; q 341 250; i 9900; i 0; i 0; i 0; i 0; i 1; i (-360); i 360];
    [i 231; i 237; q 1 10000; q 3 5000; q 357 100; i 9900; i 0; i 0; i 0; i 0; i 1; i (-360); i 360];
    [i 232; i 233; q 17 10000; q 97 2000; i 0; i 9900; i 0; i 0; i 0; i 0; i 1; i (-360); i 360];
    [i 234; i 235; q 1 5000; q 259 10000; q 18 125; i 9900; i 0; i 0; i 0; i 0; i 1; i (-360); i 360];
    [i 234; i 237; q 3 5000; q 17 625; i 0; i 9900; i 0; i 0; i 0; i 0; i 1; i (-360); i 360];
    [i 235; i 238; q 1 5000; q 3 5000; q 4 5; i 9900; i 0; i 0; i 0; i 0; i 1; i (-360); i 360];
    [i 241; i 237; q 1 2000; q 77 5000; i 0; i 9900; i 0; i 0; i 1; i 0; i 1; i (-360); i 360];
    [i 240; i 281; q 3 10000; q 43 10000; q 9 1000; i 9900; i 0; i 0; i 0; i 0; i 1; i (-360); i 360];
    [i 242; i 245; q 41 5000; q 851 10000; i 0; i 9900; i 0; i 0; i 0; i 0; i 1; i (-360); i 360];
    [i 242; i 247; q 7 625; q 723 10000; i 0; i 9900; i 0; i 0; i 0; i 0; i 1; i (-360); i 360];
    [i 243; i 244; q 127 10000; q 71 2000; i 0; i 9900; i 0; i 0; i 0; i 0; i 1; i (-360); i 360];
    [i 243; i 245; q 163 5000; q 451 2500; i 0; i 9900; i 0; i 0; i 0; i 0; i 1; i (-360); i 360];
    [i 244; i 246; q 39 2000; q 551 10000; i 0; i 9900; i 0; i 0; i 0; i 0; i 1; i (-360); i 360];
    [i 245; i 246; q 157 10000; q 183 2500; i 0; i 9900; i 0; i 0; i 0; i 0; i 1; i (-360); i 360];
    [i 245; i 247; q 9 250; q 2119 10000; i 0; i 9900; i 0; i 0; i 0; i 0; i 1; i (-360); i 360];
    [i 246; i 247; q 67 2500; q 257 2000; i 0; i 9900; i 0; i 0; i 0; i 0; i 1; i (-360); i 360];
    [i 247; i 248; q 107 2500; q 243 2000; i 0; i 9900; i 0; i 0; i 0; i 0; i 1; i (-360); i 360];
    [i 248; i 249; q 351 10000; q 251 2500; i 0; i 9900; i 0; i 0; i 0; i 0; i 1; i (-360); i 360];
    [i 249; i 250; q 77 1250; q 1857 10000; i 0; i 9900; i 0; i 0; i 0; i 0; i 1; i (-360); i 360];
    [i 3; i 1; i 0; q 13 250; i 0; i 9900; i 0; i 0; q 947 1000; i 0; i 1; i (-360); i 360];
    [i 3; i 2; i 0; q 13 250; i 0; i 9900; i 0; i 0; q 239 250; i 0; i 1; i (-360); i 360];
    [i 3; i 4; i 0; q 1 200; i 0; i 9900; i 0; i 0; q 971 1000; i 0; i 1; i (-360); i 360];
    [i 7; i 5; i 0; q 39 1000; i 0; i 9900; i 0; i 0; q 237 250; i 0; i 1; i (-360); i 360];
    [i 7; i 6; i 0; q 39 1000; i 0; i 9900; i 0; i 0; q 959 1000; i 0; i 1; i (-360); i 360];
    [i 10; i 11; i 0; q 89 1000; i 0; i 9900; i 0; i 0; q 523 500; i 0; i 1; i (-360); i 360];
    [i 12; i 10; i 0; q 53 1000; i 0; i 9900; i 0; i 0; q 197 200; i 0; i 1; i (-360); i 360];
    [i 15; i 17; q 97 5000; q 311 10000; i 0; i 9900; i 0; i 0; q 9561 10000; i 0; i 1; i (-360); i 360];
    [i 16; i 15; q 1 1000; q 19 500; i 0; i 9900; i 0; i 0; q 971 1000; i 0; i 1; i (-360); i 360];
    [i 21; i 20; i 0; q 7 500; i 0; i 9900; i 0; i 0; q 119 125; i 0; i 1; i (-360); i 360];
    [i 24; i 23; i 0; q 8 125; i 0; i 9900; i 0; i 0; q 943 1000; i 0; i 1; i (-360); i 360];
    [i 36; i 35; i 0; q 47 1000; i 0; i 9900; i 0; i 0; q 101 100; i 0; i 1; i (-360); i 360];
    [i 45; i 44; i 0; q 1 50; i 0; i 9900; i 0; i 0; q 126 125; i 0; i 1; i (-360); i 360];
    [i 45; i 46; i 0; q 21 1000; i 0; i 9900; i 0; i 0; i 1; i 0; i 1; i (-360); i 360];
    [i 62; i 61; i 0; q 59 1000; i 0; i 9900; i 0; i 0; q 39 40; i 0; i 1; i (-360); i 360];
    [i 63; i 64; i 0; q 19 500; i 0; i 9900; i 0; i 0; q 1017 1000; i 0; i 1; i (-360); i 360];
    [i 73; i 74; i 0; q 61 2500; i 0; i 9900; i 0; i 0; i 1; i 0; i 1; i (-360); i 360];
    [i 81; i 88; i 0; q 1 50; i 0; i 9900; i 0; i 0; i 1; i 0; i 1; i (-360); i 360];
    [i 85; i 99; i 0; q 6 125; i 0; i 9900; i 0; i 0; i 1; i 0; i 1; i (-360); i 360];
    [i 86; i 102; i 0; q 6 125; i 0; i 9900; i 0; i 0; i 1; i 0; i 1; i (-360); i 360];
    [i 87; i 94; i 0; q 23 500; i 0; i 9900; i 0; i 0; q 203 200; i 0; i 1; i (-360); i 360];
    [i 114; i 207; i 0; q 149 1000; i 0; i 9900; i 0; i 0; q 967 1000; i 0; i 1; i (-360); i 360];
    [i 116; i 124; q 13 2500; q 87 5000; i 0; i 9900; i 0; i 0; q 101 100; i 0; i 1; i (-360); i 360];
    [i 121; i 115; i 0; q 7 250; i 0; i 9900; i 0; i 0; q 21 20; i 0; i 1; i (-360); i 360];
    [i 122; i 157; q 1 2000; q 39 2000; i 0; i 9900; i 0; i 0; i 1; i 0; i 1; i (-360); i 360];
    [i 130; i 131; i 0; q 9 500; i 0; i 9900; i 0; i 0; q 5261 5000; i 0; i 1; i (-360); i 360];
    [i 130; i 150; i 0; q 7 500; i 0; i 9900; i 0; i 0; q 5261 5000; i 0; i 1; i (-360); i 360];
    [i 132; i 170; q 1 1000; q 201 5000; i 0; i 9900; i 0; i 0; q 21 20; i 0; i 1; i (-360); i 360];
    [i 141; i 174; q 3 1250; q 603 10000; i 0; i 9900; i 0; i 0; q 39 40; i 0; i 1; i (-360); i 360];
    [i 142; i 175; q 3 1250; q 249 5000; q (-87) 1000; i 9900; i 0; i 0; i 1; i 0; i 1; i (-360); i 360];
    [i 143; i 144; i 0; q 833 10000; i 0; i 9900; i 0; i 0; q 207 200; i 0; i 1; i (-360); i 360];
    [i 143; i 148; q 13 10000; q 371 10000; i 0; i 9900; i 0; i 0; q 1913 2000; i 0; i 1; i (-360); i 360];
    [i 145; i 180; q 1 2000; q 91 5000; i 0; i 9900; i 0; i 0; i 1; i 0; i 1; i (-360); i 360];
    [i 151; i 170; q 1 1000; q 49 1250; i 0; i 9900; i 0; i 0; q 21 20; i 0; i 1; i (-360); i 360];
    [i 153; i 183; q 27 10000; q 639 10000; i 0; i 9900; i 0; i 0; q 1073 1000; i 0; i 1; i (-360); i 360];
    [i 155; i 156; q 1 1250; q 16 625; i 0; i 9900; i 0; i 0; q 21 20; i 0; i 1; i (-360); i 360];
    [i 159; i 117; i 0; q 2 125; i 0; i 9900; i 0; i 0; q 5253 5000; i 0; i 1; i (-360); i 360];
    [i 160; i 124; q 3 2500; q 99 2500; i 0; i 9900; i 0; i 0; q 39 40; i 0; i 1; i (-360); i 360];
    [i 163; i 137; q 13 10000; q 24 625; q (-57) 1000; i 9900; i 0; i 0; q 49 50; i 0; i 1; i (-360); i 360];
    [i 164; i 155; q 9 10000; q 231 10000; q (-33) 1000; i 9900; i 0; i 0; q 239 250; i 0; i 1; i (-360); i 360];
    [i 182; i 139; q 3 10000; q 131 10000; i 0; i 9900; i 0; i 0; q 21 20; i 0; i 1; i (-360); i 360];
    [i 189; i 210; i 0; q 63 250; i 0; i 9900; i 0; i 0; q 103 100; i 0; i 1; i (-360); i 360];
    [i 193; i 196; i 0; q 237 1000; i 0; i 9900; i 0; i 0; q 103 100; i 0; i 1; i (-360); i 360];
    [i 195; i 212; q 1 1250; q 183 5000; i 0; i 9900; i 0; i 0; q 197 200; i 0; i 1; i (-360); i 360];
    [i 200; i 248; i 0; q 11 50; i 0; i 9900; i 0; i 0; i 1; i 0; i 1; i (-360); i 360];
    [i 201; i 69; i 0; q 49 500; i 0; i 9900; i 0; i 0; q 103 100; i 0; i 1; i (-360); i 360];
    [i 202; i 211; i 0; q 16 125; i 0; i 9900; i 0; i 0; q 101 100; i 0; i 1; i (-360); i 360];
    [i 204; i 2040; q 1 50; q 51 250; q (-3) 250; i 9900; i 0; i 0; q 21 20; i 0; i 1; i (-360); i 360];
    [i 209; i 198; q 13 500; q 211 1000; i 0; i 9900; i 0; i 0; q 103 100; i 0; i 1; i (-360); i 360];
    [i 211; i 212; q 3 1000; q 61 5000; i 0; i 9900; i 0; i 0; i 1; i 0; i 1; i (-360); i 360];
    [i 218; i 219; q 1 1000; q 177 5000; q (-1) 100; i 9900; i 0; i 0; q 97 100; i 0; i 1; i (-360); i 360];
    [i 223; i 224; q 3 2500; q 39 2000; q (-91) 250; i 9900; i 0; i 0; i 1; i 0; i 1; i (-360); i 360];
    [i 229; i 230; q 1 1000; q 83 2500; i 0; i 9900; i 0; i 0; q 51 50; i 0; i 1; i (-360); i 360];
    [i 234; i 236; q 1 2000; q 2 125; i 0; i 9900; i 0; i 0; q 107 100; i 0; i 1; i (-360); i 360];
    [i 238; i 239; q 1 2000; q 2 125; i 0; i 9900; i 0; i 0; q 51 50; i 0; i 1; i (-360); i 360];
    [i 196; i 2040; q 1 10000; q 1 50; i 0; i 9900; i 0; i 0; i 1; i 0; i 1; i (-360); i 360];
    [i 119; i 1190; q 1 1000; q 23 1000; i 0; i 9900; i 0; i 0; q 10223 10000; i 0; i 1; i (-360); i 360];
    [i 120; i 1200; i 0; q 23 1000; i 0; i 9900; i 0; i 0; q 2321 2500; i 0; i 1; i (-360); i 360];
    [i 7002; i 2; q 1 1000; q 73 5000; i 0; i 9900; i 0; i 0; i 1; i 0; i 1; i (-360); i 360];
    [i 7003; i 3; i 0; q 527 50000; i 0; i 9900; i 0; i 0; i 1; i 0; i 1; i (-360); i 360];
    [i 7061; i 61; i 0; q 119 5000; i 0; i 9900; i 0; i 0; i 1; i 0; i 1; i (-360); i 360];
    [i 7062; i 62; i 0; q 1607 50000; i 0; i 9900; i 0; i 0; q 19 20; i 0; i 1; i (-360); i 360];
    [i 7166; i 166; i 0; q 77 5000; i 0; i 9900; i 0; i 0; i 1; i 0; i 1; i (-360); i 360];
    [i 7024; i 24; i 0; q 289 10000; i 0; i 9900; i 0; i 0; i 1; i 0; i 1; i (-360); i 360];
    [i 7001; i 1; i 0; q 1953 100000; i 0; i 9900; i 0; i 0; i 1; i 0; i 1; i (-360); i 360];
    [i 7130; i 130; i 0; q 193 10000; i 0; i 9900; i 0; i 0; i 1; i 0; i 1; i (-360); i 360];
    [i 7011; i 11; i 0; q 1923 100000; i 0; i 9900; i 0; i 0; i 1; i 0; i 1; i (-360); i 360];
    [i 7023; i 23; i 0; q 23 1000; i 0; i 9900; i 0; i 0; i 1; i 0; i 1; i (-360); i 360];
    [i 7049; i 49; i 0; q 31 2500; i 0; i 9900; i 0; i 0; i 1; i 0; i 1; i (-360); i 360];
    [i 7139; i 139; i 0; q 167 10000; i 0; i 9900; i 0; i 0; i 1; i 0; i 1; i (-360); i 360];
    [i 7012; i 12; i 0; q 39 1250; i 0; i 9900; i 0; i 0; i 1; i 0; i 1; i (-360); i 360];
    [i 7017; i 17; i 0; q 827 50000; i 0; i 9900; i 0; i 0; q 471 500; i 0; i 1; i (-360); i 360];
    [i 7039; i 39; i 0; q 3159 100000; i 0; i 9900; i 0; i 0; q 193 200; i 0; i 1; i (-360); i 360];
    [i 7057; i 57; i 0; q 5347 100000; i 0; i 9900; i 0; i 0; q 19 20; i 0; i 1; i (-360); i 360];
    [i 7044; i 44; i 0; q 18181 100000; i 0; i 9900; i 0; i 0; q 471 500; i 0; i 1; i (-360); i 360];
    [i 7055; i 55; i 0; q 19607 100000; i 0; i 9900; i 0; i 0; q 471 500; i 0; i 1; i (-360); i 360];
    [i 7071; i 71; i 0; q 431 6250; i 0; i 9900; i 0; i 0; q 1913 2000; i 0; i 1; i (-360); i 360]]
   (None)
   (Some
   [[i 2; i 0; i 0; i 3; q 1 100; i 40; i 0];
    [i 2; i 0; i 0; i 3; q 1 100; i 40; i 0];
    [i 2; i 0; i 0; i 3; q 1 100; i 40; i 0];
    [i 2; i 0; i 0; i 3; q 1 100; i 40; i 0];
    [i 2; i 0; i 0; i 3; q 1 100; i 40; i 0];
    [i 2; i 0; i 0; i 3; q 266667 10000000; i 20; i 0];
    [i 2; i 0; i 0; i 3; q 645161 10000000; i 20; i 0];
    [i 2; i 0; i 0; i 3; q 86207 2500000; i 20; i 0];
    [i 2; i 0; i 0; i 3; q 147059 1000000; i 20; i 0];
    [i 2; i 0; i 0; i 3; q 854701 10000000; i 20; i 0];
    [i 2; i 0; i 0; i 3; q 103627 20000000; i 20; i 0];
    [i 2; i 0; i 0; i 3; q 416667 10000000; i 20; i 0];
    [i 2; i 0; i 0; i 3; q 1 100; i 40; i 0];
    [i 2; i 0; i 0; i 3; q 1 100; i 40; i 0];
    [i 2; i 0; i 0; i 3; q 11121 312500; i 20; i 0];
    [i 2; i 0; i 0; i 3; q 71839 5000000; i 20; i 0];
    [i 2; i 0; i 0; i 3; q 14881 125000; i 20; i 0];
    [i 2; i 0; i 0; i 3; q 460829 10000000; i 20; i 0];
    [i 2; i 0; i 0; i 3; q 485437 5000000; i 20; i 0];
    [i 2; i 0; i 0; i 3; q 268817 10000000; i 20; i 0];
    [i 2; i 0; i 0; i 3; q 462963 10000000; i 20; i 0];
    [i 2; i 0; i 0; i 3; q 1 100; i 40; i 0];
    [i 2; i 0; i 0; i 3; q 97561 2000000; i 20; i 0];
    [i 2; i 0; i 0; i 3; q 1 100; i 40; i 0];
    [i 2; i 0; i 0; i 3; q 109649 2500000; i 20; i 0];
    [i 2; i 0; i 0; i 3; q 14881 125000; i 20; i 0];
    [i 2; i 0; i 0; i 3; q 1 20; i 20; i 0];
    [i 2; i 0; i 0; i 3; q 833333 100000000; i 20; i 0];
    [i 2; i 0; i 0; i 3; q 833333 100000000; i 20; i 0];
    [i 2; i 0; i 0; i 3; q 105263 5000000; i 20; i 0];
    [i 2; i 0; i 0; i 3; q 253421 50000000; i 20; i 0];
    [i 2; i 0; i 0; i 3; q 235849 10000000; i 20; i 0];
    [i 2; i 0; i 0; i 3; q 367647 10000000; i 20; i 0];
    [i 2; i 0; i 0; i 3; q 1 10; i 20; i 0];
    [i 2; i 0; i 0; i 3; q 111111 5000000; i 20; i 0];
    [i 2; i 0; i 0; i 3; q 1 25; i 20; i 0];
    [i 2; i 0; i 0; i 3; q 330033 10000000; i 20; i 0];
    [i 2; i 0; i 0; i 3; q 57971 2000000; i 20; i 0];
    [i 2; i 0; i 0; i 3; q 333333 10000000; i 20; i 0];
    [i 2; i 0; i 0; i 3; q 166667 10000000; i 20; i 0];
    [i 2; i 0; i 0; i 3; q 1 25; i 20; i 0];
    [i 2; i 0; i 0; i 3; q 90909 5000000; i 20; i 0];
    [i 2; i 0; i 0; i 3; q 173783 10000000; i 20; i 0];
    [i 2; i 0; i 0; i 3; q 117647 2000000; i 20; i 0];
    [i 2; i 0; i 0; i 3; q 14881 125000; i 20; i 0];
    [i 2; i 0; i 0; i 3; q 214133 10000000; i 20; i 0];
    [i 2; i 0; i 0; i 3; q 80257 5000000; i 20; i 0];
    [i 2; i 0; i 0; i 3; q 413223 50000000; i 20; i 0];
    [i 2; i 0; i 0; i 3; q 8547 200000; i 20; i 0];
    [i 2; i 0; i 0; i 3; q 268817 10000000; i 20; i 0];
    [i 2; i 0; i 0; i 3; q 30303 1000000; i 20; i 0];
    [i 2; i 0; i 0; i 3; q 540541 10000000; i 20; i 0];
    [i 2; i 0; i 0; i 3; q 121951 5000000; i 20; i 0];
    [i 2; i 0; i 0; i 3; q 1 50; i 20; i 0];
    [i 2; i 0; i 0; i 3; q 27027 100000; i 20; i 0];
    [i 2; i 0; i 0; i 3; q 1 100; i 40; i 0];
    [i 2; i 0; i 0; i 3; q 111111 500000; i 20; i 0];
    [i 2; i 0; i 0; i 3; q 606061 10000000; i 20; i 0];
    [i 2; i 0; i 0; i 3; q 1 40; i 20; i 0];
    [i 2; i 0; i 0; i 3; q 1 40; i 20; i 0];
    [i 2; i 0; i 0; i 3; q 862069 10000000; i 20; i 0];
    [i 2; i 0; i 0; i 3; q 386997 50000000; i 20; i 0];
    [i 2; i 0; i 0; i 3; q 142857 10000000; i 20; i 0];
    [i 2; i 0; i 0; i 3; q 5651 312500; i 20; i 0];
    [i 2; i 0; i 0; i 3; q 1 100; i 40; i 0];
    [i 2; i 0; i 0; i 3; q 1 100; i 40; i 0];
    [i 2; i 0; i 0; i 3; q 1 100; i 40; i 0];
    [i 2; i 0; i 0; i 3; q 1 5; i 20; i 0];
    [i 2; i 0; i 0; i 3; q 5 4; i 20; i 0]]).

Definition bundled : list bundle :=
  [case4gs; case6ww; case9; case9Q; case14; case24_ieee_rts; case30; case30Q; case30pwl; case39; case57; case118; case300].
