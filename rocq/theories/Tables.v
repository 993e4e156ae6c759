(** The tables of the generated parser, copied from src/stl_parser.cpp. *)
From Coq Require Import List ZArith.
Import ListNotations.
Local Open Scope Z_scope.

(** stl_parser.cpp:1527-1543. *)
Definition yypact : list Z :=
  [(-16); (-4); 38; (-20); 41; (-84); 28; (-84); (-84); (-84); 2; 26; 48; (-84); 75; (-84);
   (-84); (-84); 83; 54; 25; 12; (-84); (-84); (-84); (-84); 71; 72; (-4); 38; 67; 25; 25;
   101; 101; 100; (-84); (-84); (-84); 103; (-84); (-84); (-84); (-84); (-84); 74; 27; (-84);
   78; 102; 102; (-84); (-19); (-84); (-84); (-84); (-84); 91; 45; 64; 10; 47; 25; 25; 35; 93;
   19; 19; 19; (-84); (-84); 35; 25; 25; 25; 101; 30; 73; (-84); (-84); (-84); 80; (-84);
   (-84); (-84); (-84); (-11); (-84); (-84); 35; 105; 109; (-84); (-84); (-84); (-84); 0; 0;
   0; 25; 76; 77; (-84); 1; 25; 99; 47; 113; 112; (-84); (-84); (-84); 89; 90; (-84); 30; 70;
   56; 117; (-84); (-84); (-84); (-84); 86; (-84); (-84); (-84); (-84); 106; 88; 108; 56; 87;
   (-84)].

(** stl_parser.cpp:1546-1562. *)
Definition yydefact : list Z :=
  [0; 0; 0; 0; 0; 59; 0; 61; 62; 60; 0; 0; 0; 40; 42; 49; 50; 51; 53; 0; 0; 0; 1; 63; 65; 64;
   0; 0; 0; 0; 0; 0; 0; 0; 0; 0; 4; 5; 32; 0; 8; 7; 10; 12; 14; 17; 0; 23; 33; 47; 47; 57; 0;
   38; 39; 41; 52; 34; 0; 0; 24; 0; 0; 0; 0; 0; 0; 0; 0; 19; 20; 0; 0; 0; 0; 0; 0; 0; 55; 58;
   56; 0; 9; 31; 2; 3; 0; 29; 28; 0; 0; 0; 15; 16; 13; 18; 25; 26; 27; 0; 0; 0; 45; 0; 0; 0;
   0; 0; 0; 11; 6; 30; 0; 0; 48; 0; 0; 0; 0; 22; 43; 44; 46; 0; 36; 37; 35; 21; 0; 0; 0; 0; 0;
   54].

(** stl_parser.cpp:1565-1570. *)
Definition yypgoto : list Z :=
  [(-84); (-83); (-84); (-84); 31; (-84); (-84); (-84); (-27); (-84); (-84); (-29); (-31);
   116; (-84); (-3); 104; (-84); 119; 15; (-84); 81; 107; (-84); (-84); 82; (-84); 123; (-84)].

(** stl_parser.cpp:1573-1578. *)
Definition yydefgoto : list Z :=
  [(-1); 86; 40; 41; 42; 43; 44; 45; 46; 47; 71; 62; 48; 5; 6; 126; 13; 14; 7; 102; 103; 77;
   17; 18; 8; 51; 52; 9; 10].

(** stl_parser.cpp:1581-1597. *)
Definition yytable : list Z :=
  [59; 60; 22; 107; 58; 63; 106; 114; 1; 2; 3; 73; 74; 19; 49; 75; 50; 4; 115; 84; 85; 79; 74;
   118; 89; 75; 1; 11; 3; 12; 31; 87; 88; 32; 69; 4; 70; 90; 33; 34; 89; 96; 97; 98; 95; 49;
   99; 50; 35; 36; 37; 82; 69; 39; 70; 36; 37; 38; 35; 39; 20; 100; 108; 101; 26; 36; 37; 21;
   111; 39; 83; 15; 16; 116; 72; 73; 74; 84; 85; 75; 72; 73; 74; 124; 125; 75; 27; 123; 72;
   73; 74; 30; 28; 75; 66; 67; 68; 92; 93; 94; 29; 53; 54; 57; 61; 64; 65; 76; 81; 91; 105;
   109; 104; 110; 112; 113; 117; 119; 82; 120; 121; 127; 128; 129; 130; 131; 23; 133; 132; 24;
   122; 78; 55; 25; 80; 0; 56].

(** stl_parser.cpp:1600-1616. *)
Definition yycheck : list Z :=
  [31; 32; 0; 86; 31; 34; 17; 6; 24; 25; 26; 11; 12; 33; 33; 15; 35; 33; 17; 30; 31; 40; 12;
   106; 5; 15; 24; 31; 26; 33; 5; 62; 63; 8; 7; 33; 9; 64; 13; 14; 5; 72; 73; 74; 71; 33; 75;
   35; 23; 30; 31; 6; 7; 34; 9; 30; 31; 32; 23; 34; 19; 31; 89; 33; 38; 30; 31; 39; 99; 34; 6;
   33; 34; 104; 10; 11; 12; 30; 31; 15; 10; 11; 12; 27; 28; 15; 38; 17; 10; 11; 12; 37; 17;
   15; 20; 21; 22; 66; 67; 68; 17; 30; 30; 36; 3; 5; 3; 5; 17; 16; 30; 6; 39; 4; 38; 38; 17;
   4; 6; 30; 30; 4; 36; 17; 36; 17; 10; 40; 131; 10; 115; 50; 28; 10; 52; (-1); 29].

(** stl_parser.cpp:1619-1635. *)
Definition yystos : list Z :=
  [0; 24; 25; 26; 33; 54; 55; 59; 65; 68; 69; 31; 33; 57; 58; 33; 34; 63; 64; 33; 19; 39; 0;
   54; 59; 68; 38; 38; 17; 17; 37; 5; 8; 13; 14; 23; 30; 31; 32; 34; 43; 44; 45; 46; 47; 48;
   49; 50; 53; 33; 35; 66; 67; 30; 30; 57; 63; 36; 49; 53; 53; 3; 52; 52; 5; 3; 20; 21; 22; 7;
   9; 51; 10; 11; 12; 15; 5; 62; 62; 40; 66; 17; 6; 6; 30; 31; 42; 53; 53; 5; 49; 16; 45; 45;
   45; 49; 53; 53; 53; 52; 31; 33; 60; 61; 39; 30; 17; 42; 49; 6; 4; 53; 38; 38; 6; 17; 53;
   17; 42; 4; 30; 30; 60; 17; 27; 28; 56; 4; 36; 17; 36; 17; 56; 40].

(** stl_parser.cpp:1638-1647. *)
Definition yyr1 : list Z :=
  [0; 41; 42; 42; 43; 43; 44; 45; 45; 45; 46; 46; 47; 47; 48; 48; 48; 49; 50; 51; 51; 52; 52;
   53; 53; 53; 53; 53; 53; 53; 53; 53; 53; 54; 55; 55; 56; 56; 57; 57; 58; 58; 59; 60; 60; 61;
   61; 62; 62; 63; 63; 64; 64; 65; 66; 66; 67; 67; 68; 69; 69; 69; 69; 69; 69; 69].

(** stl_parser.cpp:1650-1659. *)
Definition yyr2 : list Z :=
  [0; 2; 1; 1; 1; 1; 4; 1; 1; 3; 1; 4; 1; 3; 1; 3; 3; 1; 3; 1; 1; 5; 4; 1; 2; 3; 3; 3; 3; 3;
   4; 3; 1; 3; 4; 8; 1; 1; 3; 3; 1; 3; 2; 3; 3; 1; 3; 0; 3; 1; 1; 1; 3; 2; 11; 2; 2; 1; 4; 1;
   1; 1; 1; 2; 2; 2].

(** stl_parser.cpp:1734-1766. *)
Definition translate_table : list Z :=
  [0; 2; 2; 2; 2; 2; 2; 2; 2; 2; 2; 2; 2; 2; 2; 2; 2; 2; 2; 2; 2; 2; 2; 2; 2; 2; 2; 2; 2; 2;
   2; 2; 2; 2; 2; 2; 2; 2; 2; 2; 2; 2; 2; 2; 2; 2; 2; 2; 2; 2; 2; 2; 2; 2; 2; 2; 2; 2; 37; 2;
   2; 38; 2; 2; 2; 2; 2; 2; 2; 2; 2; 2; 2; 2; 2; 2; 2; 2; 2; 2; 2; 2; 2; 2; 2; 2; 2; 2; 2; 2;
   2; 2; 2; 2; 2; 2; 2; 2; 2; 2; 2; 2; 2; 2; 2; 2; 2; 2; 2; 2; 2; 2; 2; 2; 2; 2; 2; 2; 2; 2;
   2; 2; 2; 39; 2; 40; 2; 2; 2; 2; 2; 2; 2; 2; 2; 2; 2; 2; 2; 2; 2; 2; 2; 2; 2; 2; 2; 2; 2; 2;
   2; 2; 2; 2; 2; 2; 2; 2; 2; 2; 2; 2; 2; 2; 2; 2; 2; 2; 2; 2; 2; 2; 2; 2; 2; 2; 2; 2; 2; 2;
   2; 2; 2; 2; 2; 2; 2; 2; 2; 2; 2; 2; 2; 2; 2; 2; 2; 2; 2; 2; 2; 2; 2; 2; 2; 2; 2; 2; 2; 2;
   2; 2; 2; 2; 2; 2; 2; 2; 2; 2; 2; 2; 2; 2; 2; 2; 2; 2; 2; 2; 2; 2; 2; 2; 2; 2; 2; 2; 2; 2;
   2; 2; 2; 2; 2; 2; 2; 2; 2; 2; 2; 2; 2; 2; 2; 2; 1; 2; 3; 4; 5; 6; 7; 8; 9; 10; 11; 12; 13;
   14; 15; 16; 17; 18; 19; 20; 21; 22; 23; 24; 25; 26; 27; 28; 29; 30; 31; 32; 33; 34; 35; 36].

(** stl_parser.cpp:1522, 1524; stl_parser.h:509, 511, 514. *)
Definition yypact_ninf : Z := -84.
Definition yytable_ninf : Z := -1.
Definition yylast : Z := 136.
Definition yyfinal : Z := 22.
Definition yyntokens : Z := 41.
