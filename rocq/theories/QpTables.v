(** The Huffman code of neqo-qpack/src/huffman_table.rs:22-280 (value, length; the last is EOS) and the static table of
    neqo-qpack/src/static_table.rs:34-134 (name, value; the index of an entry is its place).  Made from the source text. *)
From Coq Require Import NArith List.
Import ListNotations.
Open Scope N_scope.

(** huffman_table.rs:22-280 [HUFFMAN_TABLE]. *)
Definition HUFFMAN : list (N * N) := [
  (8184, 13); (8388568, 23); (268435426, 28); (268435427, 28); (268435428, 28); (268435429, 28);
  (268435430, 28); (268435431, 28); (268435432, 28); (16777194, 24); (1073741820, 30); (268435433, 28);
  (268435434, 28); (1073741821, 30); (268435435, 28); (268435436, 28); (268435437, 28); (268435438, 28);
  (268435439, 28); (268435440, 28); (268435441, 28); (268435442, 28); (1073741822, 30); (268435443, 28);
  (268435444, 28); (268435445, 28); (268435446, 28); (268435447, 28); (268435448, 28); (268435449, 28);
  (268435450, 28); (268435451, 28); (20, 6); (1016, 10); (1017, 10); (4090, 12);
  (8185, 13); (21, 6); (248, 8); (2042, 11); (1018, 10); (1019, 10);
  (249, 8); (2043, 11); (250, 8); (22, 6); (23, 6); (24, 6);
  (0, 5); (1, 5); (2, 5); (25, 6); (26, 6); (27, 6);
  (28, 6); (29, 6); (30, 6); (31, 6); (92, 7); (251, 8);
  (32764, 15); (32, 6); (4091, 12); (1020, 10); (8186, 13); (33, 6);
  (93, 7); (94, 7); (95, 7); (96, 7); (97, 7); (98, 7);
  (99, 7); (100, 7); (101, 7); (102, 7); (103, 7); (104, 7);
  (105, 7); (106, 7); (107, 7); (108, 7); (109, 7); (110, 7);
  (111, 7); (112, 7); (113, 7); (114, 7); (252, 8); (115, 7);
  (253, 8); (8187, 13); (524272, 19); (8188, 13); (16380, 14); (34, 6);
  (32765, 15); (3, 5); (35, 6); (4, 5); (36, 6); (5, 5);
  (37, 6); (38, 6); (39, 6); (6, 5); (116, 7); (117, 7);
  (40, 6); (41, 6); (42, 6); (7, 5); (43, 6); (118, 7);
  (44, 6); (8, 5); (9, 5); (45, 6); (119, 7); (120, 7);
  (121, 7); (122, 7); (123, 7); (32766, 15); (2044, 11); (16381, 14);
  (8189, 13); (268435452, 28); (1048550, 20); (4194258, 22); (1048551, 20); (1048552, 20);
  (4194259, 22); (4194260, 22); (4194261, 22); (8388569, 23); (4194262, 22); (8388570, 23);
  (8388571, 23); (8388572, 23); (8388573, 23); (8388574, 23); (16777195, 24); (8388575, 23);
  (16777196, 24); (16777197, 24); (4194263, 22); (8388576, 23); (16777198, 24); (8388577, 23);
  (8388578, 23); (8388579, 23); (8388580, 23); (2097116, 21); (4194264, 22); (8388581, 23);
  (4194265, 22); (8388582, 23); (8388583, 23); (16777199, 24); (4194266, 22); (2097117, 21);
  (1048553, 20); (4194267, 22); (4194268, 22); (8388584, 23); (8388585, 23); (2097118, 21);
  (8388586, 23); (4194269, 22); (4194270, 22); (16777200, 24); (2097119, 21); (4194271, 22);
  (8388587, 23); (8388588, 23); (2097120, 21); (2097121, 21); (4194272, 22); (2097122, 21);
  (8388589, 23); (4194273, 22); (8388590, 23); (8388591, 23); (1048554, 20); (4194274, 22);
  (4194275, 22); (4194276, 22); (8388592, 23); (4194277, 22); (4194278, 22); (8388593, 23);
  (67108832, 26); (67108833, 26); (1048555, 20); (524273, 19); (4194279, 22); (8388594, 23);
  (4194280, 22); (33554412, 25); (67108834, 26); (67108835, 26); (67108836, 26); (134217694, 27);
  (134217695, 27); (67108837, 26); (16777201, 24); (33554413, 25); (524274, 19); (2097123, 21);
  (67108838, 26); (134217696, 27); (134217697, 27); (67108839, 26); (134217698, 27); (16777202, 24);
  (2097124, 21); (2097125, 21); (67108840, 26); (67108841, 26); (268435453, 28); (134217699, 27);
  (134217700, 27); (134217701, 27); (1048556, 20); (16777203, 24); (1048557, 20); (2097126, 21);
  (4194281, 22); (2097127, 21); (2097128, 21); (8388595, 23); (4194282, 22); (4194283, 22);
  (33554414, 25); (33554415, 25); (16777204, 24); (16777205, 24); (67108842, 26); (8388596, 23);
  (67108843, 26); (134217702, 27); (67108844, 26); (67108845, 26); (134217703, 27); (134217704, 27);
  (134217705, 27); (134217706, 27); (134217707, 27); (268435454, 28); (134217708, 27); (134217709, 27);
  (134217710, 27); (134217711, 27); (134217712, 27); (67108846, 26); (1073741823, 30)].

(** static_table.rs:34-134 [HEADER_STATIC_TABLE]. *)
Definition STATIC : list (list N * list N) := [
  ([58; 97; 117; 116; 104; 111; 114; 105; 116; 121], []);
  ([58; 112; 97; 116; 104], [47]);
  ([97; 103; 101], [48]);
  ([99; 111; 110; 116; 101; 110; 116; 45; 100; 105; 115; 112; 111; 115; 105; 116; 105; 111; 110], []);
  ([99; 111; 110; 116; 101; 110; 116; 45; 108; 101; 110; 103; 116; 104], [48]);
  ([99; 111; 111; 107; 105; 101], []);
  ([100; 97; 116; 101], []);
  ([101; 116; 97; 103], []);
  ([105; 102; 45; 109; 111; 100; 105; 102; 105; 101; 100; 45; 115; 105; 110; 99; 101], []);
  ([105; 102; 45; 110; 111; 110; 101; 45; 109; 97; 116; 99; 104], []);
  ([108; 97; 115; 116; 45; 109; 111; 100; 105; 102; 105; 101; 100], []);
  ([108; 105; 110; 107], []);
  ([108; 111; 99; 97; 116; 105; 111; 110], []);
  ([114; 101; 102; 101; 114; 101; 114], []);
  ([115; 101; 116; 45; 99; 111; 111; 107; 105; 101], []);
  ([58; 109; 101; 116; 104; 111; 100], [67; 79; 78; 78; 69; 67; 84]);
  ([58; 109; 101; 116; 104; 111; 100], [68; 69; 76; 69; 84; 69]);
  ([58; 109; 101; 116; 104; 111; 100], [71; 69; 84]);
  ([58; 109; 101; 116; 104; 111; 100], [72; 69; 65; 68]);
  ([58; 109; 101; 116; 104; 111; 100], [79; 80; 84; 73; 79; 78; 83]);
  ([58; 109; 101; 116; 104; 111; 100], [80; 79; 83; 84]);
  ([58; 109; 101; 116; 104; 111; 100], [80; 85; 84]);
  ([58; 115; 99; 104; 101; 109; 101], [104; 116; 116; 112]);
  ([58; 115; 99; 104; 101; 109; 101], [104; 116; 116; 112; 115]);
  ([58; 115; 116; 97; 116; 117; 115], [49; 48; 51]);
  ([58; 115; 116; 97; 116; 117; 115], [50; 48; 48]);
  ([58; 115; 116; 97; 116; 117; 115], [51; 48; 52]);
  ([58; 115; 116; 97; 116; 117; 115], [52; 48; 52]);
  ([58; 115; 116; 97; 116; 117; 115], [53; 48; 51]);
  ([97; 99; 99; 101; 112; 116], [42; 47; 42]);
  ([97; 99; 99; 101; 112; 116], [97; 112; 112; 108; 105; 99; 97; 116; 105; 111; 110; 47; 100; 110; 115; 45; 109; 101; 115; 115; 97; 103; 101]);
  ([97; 99; 99; 101; 112; 116; 45; 101; 110; 99; 111; 100; 105; 110; 103], [103; 122; 105; 112; 44; 32; 100; 101; 102; 108; 97; 116; 101; 44; 32; 98; 114]);
  ([97; 99; 99; 101; 112; 116; 45; 114; 97; 110; 103; 101; 115], [98; 121; 116; 101; 115]);
  ([97; 99; 99; 101; 115; 115; 45; 99; 111; 110; 116; 114; 111; 108; 45; 97; 108; 108; 111; 119; 45; 104; 101; 97; 100; 101; 114; 115], [99; 97; 99; 104; 101; 45; 99; 111; 110; 116; 114; 111; 108]);
  ([97; 99; 99; 101; 115; 115; 45; 99; 111; 110; 116; 114; 111; 108; 45; 97; 108; 108; 111; 119; 45; 104; 101; 97; 100; 101; 114; 115], [99; 111; 110; 116; 101; 110; 116; 45; 116; 121; 112; 101]);
  ([97; 99; 99; 101; 115; 115; 45; 99; 111; 110; 116; 114; 111; 108; 45; 97; 108; 108; 111; 119; 45; 111; 114; 105; 103; 105; 110], [42]);
  ([99; 97; 99; 104; 101; 45; 99; 111; 110; 116; 114; 111; 108], [109; 97; 120; 45; 97; 103; 101; 61; 48]);
  ([99; 97; 99; 104; 101; 45; 99; 111; 110; 116; 114; 111; 108], [109; 97; 120; 45; 97; 103; 101; 61; 50; 53; 57; 50; 48; 48; 48]);
  ([99; 97; 99; 104; 101; 45; 99; 111; 110; 116; 114; 111; 108], [109; 97; 120; 45; 97; 103; 101; 61; 54; 48; 52; 56; 48; 48]);
  ([99; 97; 99; 104; 101; 45; 99; 111; 110; 116; 114; 111; 108], [110; 111; 45; 99; 97; 99; 104; 101]);
  ([99; 97; 99; 104; 101; 45; 99; 111; 110; 116; 114; 111; 108], [110; 111; 45; 115; 116; 111; 114; 101]);
  ([99; 97; 99; 104; 101; 45; 99; 111; 110; 116; 114; 111; 108], [112; 117; 98; 108; 105; 99; 44; 32; 109; 97; 120; 45; 97; 103; 101; 61; 51; 49; 53; 51; 54; 48; 48; 48]);
  ([99; 111; 110; 116; 101; 110; 116; 45; 101; 110; 99; 111; 100; 105; 110; 103], [98; 114]);
  ([99; 111; 110; 116; 101; 110; 116; 45; 101; 110; 99; 111; 100; 105; 110; 103], [103; 122; 105; 112]);
  ([99; 111; 110; 116; 101; 110; 116; 45; 116; 121; 112; 101], [97; 112; 112; 108; 105; 99; 97; 116; 105; 111; 110; 47; 100; 110; 115; 45; 109; 101; 115; 115; 97; 103; 101]);
  ([99; 111; 110; 116; 101; 110; 116; 45; 116; 121; 112; 101], [97; 112; 112; 108; 105; 99; 97; 116; 105; 111; 110; 47; 106; 97; 118; 97; 115; 99; 114; 105; 112; 116]);
  ([99; 111; 110; 116; 101; 110; 116; 45; 116; 121; 112; 101], [97; 112; 112; 108; 105; 99; 97; 116; 105; 111; 110; 47; 106; 115; 111; 110]);
  ([99; 111; 110; 116; 101; 110; 116; 45; 116; 121; 112; 101], [97; 112; 112; 108; 105; 99; 97; 116; 105; 111; 110; 47; 120; 45; 119; 119; 119; 45; 102; 111; 114; 109; 45; 117; 114; 108; 101; 110; 99; 111; 100; 101; 100]);
  ([99; 111; 110; 116; 101; 110; 116; 45; 116; 121; 112; 101], [105; 109; 97; 103; 101; 47; 103; 105; 102]);
  ([99; 111; 110; 116; 101; 110; 116; 45; 116; 121; 112; 101], [105; 109; 97; 103; 101; 47; 106; 112; 101; 103]);
  ([99; 111; 110; 116; 101; 110; 116; 45; 116; 121; 112; 101], [105; 109; 97; 103; 101; 47; 112; 110; 103]);
  ([99; 111; 110; 116; 101; 110; 116; 45; 116; 121; 112; 101], [116; 101; 120; 116; 47; 99; 115; 115]);
  ([99; 111; 110; 116; 101; 110; 116; 45; 116; 121; 112; 101], [116; 101; 120; 116; 47; 104; 116; 109; 108; 59; 32; 99; 104; 97; 114; 115; 101; 116; 61; 117; 116; 102; 45; 56]);
  ([99; 111; 110; 116; 101; 110; 116; 45; 116; 121; 112; 101], [116; 101; 120; 116; 47; 112; 108; 97; 105; 110]);
  ([99; 111; 110; 116; 101; 110; 116; 45; 116; 121; 112; 101], [116; 101; 120; 116; 47; 112; 108; 97; 105; 110; 59; 99; 104; 97; 114; 115; 101; 116; 61; 117; 116; 102; 45; 56]);
  ([114; 97; 110; 103; 101], [98; 121; 116; 101; 115; 61; 48; 45]);
  ([115; 116; 114; 105; 99; 116; 45; 116; 114; 97; 110; 115; 112; 111; 114; 116; 45; 115; 101; 99; 117; 114; 105; 116; 121], [109; 97; 120; 45; 97; 103; 101; 61; 51; 49; 53; 51; 54; 48; 48; 48]);
  ([115; 116; 114; 105; 99; 116; 45; 116; 114; 97; 110; 115; 112; 111; 114; 116; 45; 115; 101; 99; 117; 114; 105; 116; 121], [109; 97; 120; 45; 97; 103; 101; 61; 51; 49; 53; 51; 54; 48; 48; 48; 59; 32; 105; 110; 99; 108; 117; 100; 101; 115; 117; 98; 100; 111; 109; 97; 105; 110; 115]);
  ([115; 116; 114; 105; 99; 116; 45; 116; 114; 97; 110; 115; 112; 111; 114; 116; 45; 115; 101; 99; 117; 114; 105; 116; 121], [109; 97; 120; 45; 97; 103; 101; 61; 51; 49; 53; 51; 54; 48; 48; 48; 59; 32; 105; 110; 99; 108; 117; 100; 101; 115; 117; 98; 100; 111; 109; 97; 105; 110; 115; 59; 32; 112; 114; 101; 108; 111; 97; 100]);
  ([118; 97; 114; 121], [97; 99; 99; 101; 112; 116; 45; 101; 110; 99; 111; 100; 105; 110; 103]);
  ([118; 97; 114; 121], [111; 114; 105; 103; 105; 110]);
  ([120; 45; 99; 111; 110; 116; 101; 110; 116; 45; 116; 121; 112; 101; 45; 111; 112; 116; 105; 111; 110; 115], [110; 111; 115; 110; 105; 102; 102]);
  ([120; 45; 120; 115; 115; 45; 112; 114; 111; 116; 101; 99; 116; 105; 111; 110], [49; 59; 32; 109; 111; 100; 101; 61; 98; 108; 111; 99; 107]);
  ([58; 115; 116; 97; 116; 117; 115], [49; 48; 48]);
  ([58; 115; 116; 97; 116; 117; 115], [50; 48; 52]);
  ([58; 115; 116; 97; 116; 117; 115], [50; 48; 54]);
  ([58; 115; 116; 97; 116; 117; 115], [51; 48; 50]);
  ([58; 115; 116; 97; 116; 117; 115], [52; 48; 48]);
  ([58; 115; 116; 97; 116; 117; 115], [52; 48; 51]);
  ([58; 115; 116; 97; 116; 117; 115], [52; 50; 49]);
  ([58; 115; 116; 97; 116; 117; 115], [52; 50; 53]);
  ([58; 115; 116; 97; 116; 117; 115], [53; 48; 48]);
  ([97; 99; 99; 101; 112; 116; 45; 108; 97; 110; 103; 117; 97; 103; 101], []);
  ([97; 99; 99; 101; 115; 115; 45; 99; 111; 110; 116; 114; 111; 108; 45; 97; 108; 108; 111; 119; 45; 99; 114; 101; 100; 101; 110; 116; 105; 97; 108; 115], [70; 65; 76; 83; 69]);
  ([97; 99; 99; 101; 115; 115; 45; 99; 111; 110; 116; 114; 111; 108; 45; 97; 108; 108; 111; 119; 45; 99; 114; 101; 100; 101; 110; 116; 105; 97; 108; 115], [84; 82; 85; 69]);
  ([97; 99; 99; 101; 115; 115; 45; 99; 111; 110; 116; 114; 111; 108; 45; 97; 108; 108; 111; 119; 45; 104; 101; 97; 100; 101; 114; 115], [42]);
  ([97; 99; 99; 101; 115; 115; 45; 99; 111; 110; 116; 114; 111; 108; 45; 97; 108; 108; 111; 119; 45; 109; 101; 116; 104; 111; 100; 115], [103; 101; 116]);
  ([97; 99; 99; 101; 115; 115; 45; 99; 111; 110; 116; 114; 111; 108; 45; 97; 108; 108; 111; 119; 45; 109; 101; 116; 104; 111; 100; 115], [103; 101; 116; 44; 32; 112; 111; 115; 116; 44; 32; 111; 112; 116; 105; 111; 110; 115]);
  ([97; 99; 99; 101; 115; 115; 45; 99; 111; 110; 116; 114; 111; 108; 45; 97; 108; 108; 111; 119; 45; 109; 101; 116; 104; 111; 100; 115], [111; 112; 116; 105; 111; 110; 115]);
  ([97; 99; 99; 101; 115; 115; 45; 99; 111; 110; 116; 114; 111; 108; 45; 101; 120; 112; 111; 115; 101; 45; 104; 101; 97; 100; 101; 114; 115], [99; 111; 110; 116; 101; 110; 116; 45; 108; 101; 110; 103; 116; 104]);
  ([97; 99; 99; 101; 115; 115; 45; 99; 111; 110; 116; 114; 111; 108; 45; 114; 101; 113; 117; 101; 115; 116; 45; 104; 101; 97; 100; 101; 114; 115], [99; 111; 110; 116; 101; 110; 116; 45; 116; 121; 112; 101]);
  ([97; 99; 99; 101; 115; 115; 45; 99; 111; 110; 116; 114; 111; 108; 45; 114; 101; 113; 117; 101; 115; 116; 45; 109; 101; 116; 104; 111; 100], [103; 101; 116]);
  ([97; 99; 99; 101; 115; 115; 45; 99; 111; 110; 116; 114; 111; 108; 45; 114; 101; 113; 117; 101; 115; 116; 45; 109; 101; 116; 104; 111; 100], [112; 111; 115; 116]);
  ([97; 108; 116; 45; 115; 118; 99], [99; 108; 101; 97; 114]);
  ([97; 117; 116; 104; 111; 114; 105; 122; 97; 116; 105; 111; 110], []);
  ([99; 111; 110; 116; 101; 110; 116; 45; 115; 101; 99; 117; 114; 105; 116; 121; 45; 112; 111; 108; 105; 99; 121], [115; 99; 114; 105; 112; 116; 45; 115; 114; 99; 32; 39; 110; 111; 110; 101; 39; 59; 32; 111; 98; 106; 101; 99; 116; 45; 115; 114; 99; 32; 39; 110; 111; 110; 101; 39; 59; 32; 98; 97; 115; 101; 45; 117; 114; 105; 32; 39; 110; 111; 110; 101; 39]);
  ([101; 97; 114; 108; 121; 45; 100; 97; 116; 97], [49]);
  ([101; 120; 112; 101; 99; 116; 45; 99; 116], []);
  ([102; 111; 114; 119; 97; 114; 100; 101; 100], []);
  ([105; 102; 45; 114; 97; 110; 103; 101], []);
  ([111; 114; 105; 103; 105; 110], []);
  ([112; 117; 114; 112; 111; 115; 101], [112; 114; 101; 102; 101; 116; 99; 104]);
  ([115; 101; 114; 118; 101; 114], []);
  ([116; 105; 109; 105; 110; 103; 45; 97; 108; 108; 111; 119; 45; 111; 114; 105; 103; 105; 110], [42]);
  ([117; 112; 103; 114; 97; 100; 101; 45; 105; 110; 115; 101; 99; 117; 114; 101; 45; 114; 101; 113; 117; 101; 115; 116; 115], [49]);
  ([117; 115; 101; 114; 45; 97; 103; 101; 110; 116], []);
  ([120; 45; 102; 111; 114; 119; 97; 114; 100; 101; 100; 45; 102; 111; 114], []);
  ([120; 45; 102; 114; 97; 109; 101; 45; 111; 112; 116; 105; 111; 110; 115], [100; 101; 110; 121]);
  ([120; 45; 102; 114; 97; 109; 101; 45; 111; 112; 116; 105; 111; 110; 115], [115; 97; 109; 101; 111; 114; 105; 103; 105; 110])].
