(** The tables of the generated scanner, src/stl_scanner.cpp. *)
From Coq Require Import List.
Import ListNotations.

(** stl_scanner.cpp:409-416. *)
Definition yy_accept : list nat :=
  [0; 0; 0; 33; 31; 1; 2; 17; 31; 31; 19; 9; 10; 24; 22; 18; 23; 27; 28; 31; 13; 31; 14; 25;
   7; 8; 20; 1; 0; 29; 0; 0; 30; 27; 28; 12; 26; 21; 15; 3; 11; 16; 25; 5; 4; 6; 0].
(** stl_scanner.cpp:418-448. *)
Definition yy_ec : list nat :=
  [0; 1; 1; 1; 1; 1; 1; 1; 1; 2; 3; 1; 1; 2; 1; 1; 1; 1; 1; 1; 1; 1; 1; 1;
   1; 1; 1; 1; 1; 1; 1; 1; 2; 4; 5; 6; 1; 1; 7; 1; 8; 9; 10; 11; 12; 13; 14; 1;
   15; 15; 15; 15; 15; 15; 15; 15; 15; 15; 16; 1; 17; 18; 19; 1; 1; 20; 20; 20; 20; 20; 20; 20;
   20; 20; 20; 20; 20; 20; 20; 20; 20; 20; 20; 20; 20; 20; 20; 20; 20; 20; 20; 21; 22; 23; 1; 24;
   1; 20; 20; 20; 20; 20; 20; 20; 20; 20; 20; 20; 20; 20; 20; 20; 20; 20; 20; 20; 20; 20; 20; 20;
   20; 20; 20; 1; 25; 1; 1; 1; 1; 1; 1; 1; 1; 1; 1; 1; 1; 1; 1; 1; 1; 1; 1; 1;
   1; 1; 1; 1; 1; 1; 1; 1; 1; 1; 1; 1; 1; 1; 1; 1; 1; 1; 1; 1; 1; 1; 1; 1;
   1; 1; 1; 1; 1; 1; 1; 1; 1; 1; 1; 1; 1; 1; 1; 1; 1; 1; 1; 1; 1; 1; 1; 1;
   1; 1; 1; 1; 1; 1; 1; 1; 1; 1; 1; 1; 1; 1; 1; 1; 1; 1; 1; 1; 1; 1; 1; 1;
   1; 1; 1; 1; 1; 1; 1; 1; 1; 1; 1; 1; 1; 1; 1; 1; 1; 1; 1; 1; 1; 1; 1; 1;
   1; 1; 1; 1; 1; 1; 1; 1; 1; 1; 1; 1; 1; 1; 1; 1].
(** stl_scanner.cpp:450-455. *)
Definition yy_meta : list nat :=
  [0; 1; 1; 1; 1; 1; 1; 1; 1; 1; 1; 1; 1; 1; 1; 1; 1; 1; 1; 1; 1; 1; 1; 1;
   1; 1].
(** stl_scanner.cpp:457-464. *)
Definition yy_base : list nat :=
  [0; 0; 0; 63; 64; 60; 64; 64; 21; 58; 64; 64; 64; 64; 13; 64; 15; 45; 17; 41; 17; 39; 39; 18;
   33; 64; 64; 53; 32; 64; 50; 49; 64; 36; 25; 64; 34; 64; 64; 24; 64; 64; 26; 23; 64; 64; 64; 44;
   43].
(** stl_scanner.cpp:466-473. *)
Definition yy_def : list nat :=
  [0; 46; 1; 46; 46; 46; 46; 46; 47; 48; 46; 46; 46; 46; 46; 46; 46; 46; 46; 46; 46; 46; 46; 46;
   46; 46; 46; 46; 47; 46; 47; 48; 46; 46; 46; 46; 46; 46; 46; 46; 46; 46; 46; 46; 46; 46; 0; 46;
   46].
(** stl_scanner.cpp:475-486. *)
Definition yy_nxt : list nat :=
  [0; 4; 5; 6; 7; 8; 9; 10; 11; 12; 13; 14; 15; 16; 17; 18; 19; 20; 21; 22; 23; 24; 4; 25;
   4; 26; 29; 33; 34; 33; 34; 33; 34; 42; 35; 38; 39; 29; 42; 33; 34; 42; 42; 30; 31; 28; 42; 45;
   44; 36; 42; 36; 32; 46; 30; 27; 43; 41; 40; 37; 36; 32; 27; 46; 3; 46; 46; 46; 46; 46; 46; 46;
   46; 46; 46; 46; 46; 46; 46; 46; 46; 46; 46; 46; 46; 46; 46; 46; 46; 46].
(** stl_scanner.cpp:488-499. *)
Definition yy_chk : list nat :=
  [0; 1; 1; 1; 1; 1; 1; 1; 1; 1; 1; 1; 1; 1; 1; 1; 1; 1; 1; 1; 1; 1; 1; 1;
   1; 1; 8; 14; 14; 16; 16; 18; 18; 23; 16; 20; 20; 28; 23; 34; 34; 42; 23; 8; 48; 47; 42; 43;
   39; 36; 42; 33; 31; 30; 28; 27; 24; 22; 21; 19; 17; 9; 5; 3; 46; 46; 46; 46; 46; 46; 46; 46;
   46; 46; 46; 46; 46; 46; 46; 46; 46; 46; 46; 46; 46; 46; 46; 46; 46; 46].
