(** Lines 2 to 251 of third_party/sobol_data/new-joe-kuo-6.21201 as parsed by
    sobol_impl.py 237-261: the polynomial 2^s + 2 a + 1 and m_1 .. m_s, for
    dimensions 2 to 251. *)
From Coq Require Import NArith List.
Import ListNotations.
Open Scope N_scope.

Definition joe_kuo : list (N * list N) :=
  [
   (3, [1]);
   (7, [1; 3]);
   (11, [1; 3; 1]);
   (13, [1; 1; 1]);
   (19, [1; 1; 3; 3]);
   (25, [1; 3; 5; 13]);
   (37, [1; 1; 5; 5; 17]);
   (41, [1; 1; 5; 5; 5]);
   (47, [1; 1; 7; 11; 19]);
   (55, [1; 1; 5; 1; 1]);
   (59, [1; 1; 1; 3; 11]);
   (61, [1; 3; 5; 5; 31]);
   (67, [1; 3; 3; 9; 7; 49]);
   (91, [1; 1; 1; 15; 21; 21]);
   (97, [1; 3; 1; 13; 27; 49]);
   (103, [1; 1; 1; 15; 7; 5]);
   (109, [1; 3; 1; 15; 13; 25]);
   (115, [1; 1; 5; 5; 19; 61]);
   (131, [1; 3; 7; 11; 23; 15; 103]);
   (137, [1; 3; 7; 13; 13; 15; 69]);
   (143, [1; 1; 3; 13; 7; 35; 63]);
   (145, [1; 3; 5; 9; 1; 25; 53]);
   (157, [1; 3; 1; 13; 9; 35; 107]);
   (167, [1; 3; 1; 5; 27; 61; 31]);
   (171, [1; 1; 5; 11; 19; 41; 61]);
   (185, [1; 3; 5; 3; 3; 13; 69]);
   (191, [1; 1; 7; 13; 1; 19; 1]);
   (193, [1; 3; 7; 5; 13; 19; 59]);
   (203, [1; 1; 3; 9; 25; 29; 41]);
   (211, [1; 3; 5; 13; 23; 1; 55]);
   (213, [1; 3; 7; 3; 13; 59; 17]);
   (229, [1; 3; 1; 3; 5; 53; 69]);
   (239, [1; 1; 5; 5; 23; 33; 13]);
   (241, [1; 1; 7; 7; 1; 61; 123]);
   (247, [1; 1; 7; 9; 13; 61; 49]);
   (253, [1; 3; 3; 5; 3; 55; 33]);
   (285, [1; 3; 1; 15; 31; 13; 49; 245]);
   (299, [1; 3; 5; 15; 31; 59; 63; 97]);
   (301, [1; 3; 1; 11; 11; 11; 77; 249]);
   (333, [1; 3; 1; 11; 27; 43; 71; 9]);
   (351, [1; 1; 7; 15; 21; 11; 81; 45]);
   (355, [1; 3; 7; 3; 25; 31; 65; 79]);
   (357, [1; 3; 1; 1; 19; 11; 3; 205]);
   (361, [1; 1; 5; 9; 19; 21; 29; 157]);
   (369, [1; 3; 7; 11; 1; 33; 89; 185]);
   (391, [1; 3; 3; 3; 15; 9; 79; 71]);
   (397, [1; 3; 7; 11; 15; 39; 119; 27]);
   (425, [1; 1; 3; 1; 11; 31; 97; 225]);
   (451, [1; 1; 1; 3; 23; 43; 57; 177]);
   (463, [1; 3; 7; 7; 17; 17; 37; 71]);
   (487, [1; 3; 1; 5; 27; 63; 123; 213]);
   (501, [1; 1; 3; 5; 11; 43; 53; 133]);
   (529, [1; 3; 5; 5; 29; 17; 47; 173; 479]);
   (539, [1; 3; 3; 11; 3; 1; 109; 9; 69]);
   (545, [1; 1; 1; 5; 17; 39; 23; 5; 343]);
   (557, [1; 3; 1; 5; 25; 15; 31; 103; 499]);
   (563, [1; 1; 1; 11; 11; 17; 63; 105; 183]);
   (601, [1; 1; 5; 11; 9; 29; 97; 231; 363]);
   (607, [1; 1; 5; 15; 19; 45; 41; 7; 383]);
   (617, [1; 3; 7; 7; 31; 19; 83; 137; 221]);
   (623, [1; 1; 1; 3; 23; 15; 111; 223; 83]);
   (631, [1; 1; 5; 13; 31; 15; 55; 25; 161]);
   (637, [1; 1; 3; 13; 25; 47; 39; 87; 257]);
   (647, [1; 1; 1; 11; 21; 53; 125; 249; 293]);
   (661, [1; 1; 7; 11; 11; 7; 57; 79; 323]);
   (675, [1; 1; 5; 5; 17; 13; 81; 3; 131]);
   (677, [1; 1; 7; 13; 23; 7; 65; 251; 475]);
   (687, [1; 3; 5; 1; 9; 43; 3; 149; 11]);
   (695, [1; 1; 3; 13; 31; 13; 13; 255; 487]);
   (701, [1; 3; 3; 1; 5; 63; 89; 91; 127]);
   (719, [1; 1; 3; 3; 1; 19; 123; 127; 237]);
   (721, [1; 1; 5; 7; 23; 31; 37; 243; 289]);
   (731, [1; 1; 5; 11; 17; 53; 117; 183; 491]);
   (757, [1; 1; 1; 5; 1; 13; 13; 209; 345]);
   (761, [1; 1; 3; 15; 1; 57; 115; 7; 33]);
   (787, [1; 3; 1; 11; 7; 43; 81; 207; 175]);
   (789, [1; 3; 1; 1; 15; 27; 63; 255; 49]);
   (799, [1; 3; 5; 3; 27; 61; 105; 171; 305]);
   (803, [1; 1; 5; 3; 1; 3; 57; 249; 149]);
   (817, [1; 1; 3; 5; 5; 57; 15; 13; 159]);
   (827, [1; 1; 1; 11; 7; 11; 105; 141; 225]);
   (847, [1; 3; 3; 5; 27; 59; 121; 101; 271]);
   (859, [1; 3; 5; 9; 11; 49; 51; 59; 115]);
   (865, [1; 1; 7; 1; 23; 45; 125; 71; 419]);
   (875, [1; 1; 3; 5; 23; 5; 105; 109; 75]);
   (877, [1; 1; 7; 15; 7; 11; 67; 121; 453]);
   (883, [1; 3; 7; 3; 9; 13; 31; 27; 449]);
   (895, [1; 3; 1; 15; 19; 39; 39; 89; 15]);
   (901, [1; 1; 1; 1; 1; 33; 73; 145; 379]);
   (911, [1; 3; 1; 15; 15; 43; 29; 13; 483]);
   (949, [1; 1; 7; 3; 19; 27; 85; 131; 431]);
   (953, [1; 3; 3; 3; 5; 35; 23; 195; 349]);
   (967, [1; 3; 3; 7; 9; 27; 39; 59; 297]);
   (971, [1; 1; 3; 9; 11; 17; 13; 241; 157]);
   (973, [1; 3; 7; 15; 25; 57; 33; 189; 213]);
   (981, [1; 1; 7; 1; 9; 55; 73; 83; 217]);
   (985, [1; 3; 3; 13; 19; 27; 23; 113; 249]);
   (995, [1; 3; 5; 3; 23; 43; 3; 253; 479]);
   (1001, [1; 1; 5; 5; 11; 5; 45; 117; 217]);
   (1019, [1; 3; 3; 7; 29; 37; 33; 123; 147]);
   (1033, [1; 3; 1; 15; 5; 5; 37; 227; 223; 459]);
   (1051, [1; 1; 7; 5; 5; 39; 63; 255; 135; 487]);
   (1063, [1; 3; 1; 7; 9; 7; 87; 249; 217; 599]);
   (1069, [1; 1; 3; 13; 9; 47; 7; 225; 363; 247]);
   (1125, [1; 3; 7; 13; 19; 13; 9; 67; 9; 737]);
   (1135, [1; 3; 5; 5; 19; 59; 7; 41; 319; 677]);
   (1153, [1; 1; 5; 3; 31; 63; 15; 43; 207; 789]);
   (1163, [1; 1; 7; 9; 13; 39; 3; 47; 497; 169]);
   (1221, [1; 3; 1; 7; 21; 17; 97; 19; 415; 905]);
   (1239, [1; 3; 7; 1; 3; 31; 71; 111; 165; 127]);
   (1255, [1; 1; 5; 11; 1; 61; 83; 119; 203; 847]);
   (1267, [1; 3; 3; 13; 9; 61; 19; 97; 47; 35]);
   (1279, [1; 1; 7; 7; 15; 29; 63; 95; 417; 469]);
   (1293, [1; 3; 1; 9; 25; 9; 71; 57; 213; 385]);
   (1305, [1; 3; 5; 13; 31; 47; 101; 57; 39; 341]);
   (1315, [1; 1; 3; 3; 31; 57; 125; 173; 365; 551]);
   (1329, [1; 3; 7; 1; 13; 57; 67; 157; 451; 707]);
   (1341, [1; 1; 1; 7; 21; 13; 105; 89; 429; 965]);
   (1347, [1; 1; 5; 9; 17; 51; 45; 119; 157; 141]);
   (1367, [1; 3; 7; 7; 13; 45; 91; 9; 129; 741]);
   (1387, [1; 3; 7; 1; 23; 57; 67; 141; 151; 571]);
   (1413, [1; 1; 3; 11; 17; 47; 93; 107; 375; 157]);
   (1423, [1; 3; 3; 5; 11; 21; 43; 51; 169; 915]);
   (1431, [1; 1; 5; 3; 15; 55; 101; 67; 455; 625]);
   (1441, [1; 3; 5; 9; 1; 23; 29; 47; 345; 595]);
   (1479, [1; 3; 7; 7; 5; 49; 29; 155; 323; 589]);
   (1509, [1; 3; 3; 7; 5; 41; 127; 61; 261; 717]);
   (1527, [1; 3; 7; 7; 17; 23; 117; 67; 129; 1009]);
   (1531, [1; 1; 3; 13; 11; 39; 21; 207; 123; 305]);
   (1555, [1; 1; 3; 9; 29; 3; 95; 47; 231; 73]);
   (1557, [1; 3; 1; 9; 1; 29; 117; 21; 441; 259]);
   (1573, [1; 3; 1; 13; 21; 39; 125; 211; 439; 723]);
   (1591, [1; 1; 7; 3; 17; 63; 115; 89; 49; 773]);
   (1603, [1; 3; 7; 13; 11; 33; 101; 107; 63; 73]);
   (1615, [1; 1; 5; 5; 13; 57; 63; 135; 437; 177]);
   (1627, [1; 1; 3; 7; 27; 63; 93; 47; 417; 483]);
   (1657, [1; 1; 3; 1; 23; 29; 1; 191; 49; 23]);
   (1663, [1; 1; 3; 15; 25; 55; 9; 101; 219; 607]);
   (1673, [1; 3; 1; 7; 7; 19; 51; 251; 393; 307]);
   (1717, [1; 3; 3; 3; 25; 55; 17; 75; 337; 3]);
   (1729, [1; 1; 1; 13; 25; 17; 65; 45; 479; 413]);
   (1747, [1; 1; 7; 7; 27; 49; 99; 161; 213; 727]);
   (1759, [1; 3; 5; 1; 23; 5; 43; 41; 251; 857]);
   (1789, [1; 3; 3; 7; 11; 61; 39; 87; 383; 835]);
   (1815, [1; 1; 3; 15; 13; 7; 29; 7; 505; 923]);
   (1821, [1; 3; 7; 1; 5; 31; 47; 157; 445; 501]);
   (1825, [1; 1; 3; 7; 1; 43; 9; 147; 115; 605]);
   (1849, [1; 3; 3; 13; 5; 1; 119; 211; 455; 1001]);
   (1863, [1; 1; 3; 5; 13; 19; 3; 243; 75; 843]);
   (1869, [1; 3; 7; 7; 1; 19; 91; 249; 357; 589]);
   (1877, [1; 1; 1; 9; 1; 25; 109; 197; 279; 411]);
   (1881, [1; 3; 1; 15; 23; 57; 59; 135; 191; 75]);
   (1891, [1; 1; 5; 15; 29; 21; 39; 253; 383; 349]);
   (1917, [1; 3; 3; 5; 19; 45; 61; 151; 199; 981]);
   (1933, [1; 3; 5; 13; 9; 61; 107; 141; 141; 1]);
   (1939, [1; 3; 1; 11; 27; 25; 85; 105; 309; 979]);
   (1969, [1; 3; 3; 11; 19; 7; 115; 223; 349; 43]);
   (2011, [1; 1; 7; 9; 21; 39; 123; 21; 275; 927]);
   (2035, [1; 1; 7; 13; 15; 41; 47; 243; 303; 437]);
   (2041, [1; 1; 1; 7; 7; 3; 15; 99; 409; 719]);
   (2053, [1; 3; 3; 15; 27; 49; 113; 123; 113; 67; 469]);
   (2071, [1; 3; 7; 11; 3; 23; 87; 169; 119; 483; 199]);
   (2091, [1; 1; 5; 15; 7; 17; 109; 229; 179; 213; 741]);
   (2093, [1; 1; 5; 13; 11; 17; 25; 135; 403; 557; 1433]);
   (2119, [1; 3; 1; 1; 1; 61; 67; 215; 189; 945; 1243]);
   (2147, [1; 1; 7; 13; 17; 33; 9; 221; 429; 217; 1679]);
   (2149, [1; 1; 3; 11; 27; 3; 15; 93; 93; 865; 1049]);
   (2161, [1; 3; 7; 7; 25; 41; 121; 35; 373; 379; 1547]);
   (2171, [1; 3; 3; 9; 11; 35; 45; 205; 241; 9; 59]);
   (2189, [1; 3; 1; 7; 3; 51; 7; 177; 53; 975; 89]);
   (2197, [1; 1; 3; 5; 27; 1; 113; 231; 299; 759; 861]);
   (2207, [1; 3; 3; 15; 25; 29; 5; 255; 139; 891; 2031]);
   (2217, [1; 3; 1; 1; 13; 9; 109; 193; 419; 95; 17]);
   (2225, [1; 1; 7; 9; 3; 7; 29; 41; 135; 839; 867]);
   (2255, [1; 1; 7; 9; 25; 49; 123; 217; 113; 909; 215]);
   (2257, [1; 1; 7; 3; 23; 15; 43; 133; 217; 327; 901]);
   (2273, [1; 1; 3; 3; 13; 53; 63; 123; 477; 711; 1387]);
   (2279, [1; 1; 3; 15; 7; 29; 75; 119; 181; 957; 247]);
   (2283, [1; 1; 1; 11; 27; 25; 109; 151; 267; 99; 1461]);
   (2293, [1; 3; 7; 15; 5; 5; 53; 145; 11; 725; 1501]);
   (2317, [1; 3; 7; 1; 9; 43; 71; 229; 157; 607; 1835]);
   (2323, [1; 3; 3; 13; 25; 1; 5; 27; 471; 349; 127]);
   (2341, [1; 1; 1; 1; 23; 37; 9; 221; 269; 897; 1685]);
   (2345, [1; 1; 3; 3; 31; 29; 51; 19; 311; 553; 1969]);
   (2363, [1; 3; 7; 5; 5; 55; 17; 39; 475; 671; 1529]);
   (2365, [1; 1; 7; 1; 1; 35; 47; 27; 437; 395; 1635]);
   (2373, [1; 1; 7; 3; 13; 23; 43; 135; 327; 139; 389]);
   (2377, [1; 3; 7; 3; 9; 25; 91; 25; 429; 219; 513]);
   (2385, [1; 1; 3; 5; 13; 29; 119; 201; 277; 157; 2043]);
   (2395, [1; 3; 5; 3; 29; 57; 13; 17; 167; 739; 1031]);
   (2419, [1; 3; 3; 5; 29; 21; 95; 27; 255; 679; 1531]);
   (2421, [1; 3; 7; 15; 9; 5; 21; 71; 61; 961; 1201]);
   (2431, [1; 3; 5; 13; 15; 57; 33; 93; 459; 867; 223]);
   (2435, [1; 1; 1; 15; 17; 43; 127; 191; 67; 177; 1073]);
   (2447, [1; 1; 1; 15; 23; 7; 21; 199; 75; 293; 1611]);
   (2475, [1; 3; 7; 13; 15; 39; 21; 149; 65; 741; 319]);
   (2477, [1; 3; 7; 11; 23; 13; 101; 89; 277; 519; 711]);
   (2489, [1; 3; 7; 15; 19; 27; 85; 203; 441; 97; 1895]);
   (2503, [1; 3; 1; 3; 29; 25; 21; 155; 11; 191; 197]);
   (2521, [1; 1; 7; 5; 27; 11; 81; 101; 457; 675; 1687]);
   (2533, [1; 3; 1; 5; 25; 5; 65; 193; 41; 567; 781]);
   (2551, [1; 3; 1; 5; 11; 15; 113; 77; 411; 695; 1111]);
   (2561, [1; 1; 3; 9; 11; 53; 119; 171; 55; 297; 509]);
   (2567, [1; 1; 1; 1; 11; 39; 113; 139; 165; 347; 595]);
   (2579, [1; 3; 7; 11; 9; 17; 101; 13; 81; 325; 1733]);
   (2581, [1; 3; 1; 1; 21; 43; 115; 9; 113; 907; 645]);
   (2601, [1; 1; 7; 3; 9; 25; 117; 197; 159; 471; 475]);
   (2633, [1; 3; 1; 9; 11; 21; 57; 207; 485; 613; 1661]);
   (2657, [1; 1; 7; 7; 27; 55; 49; 223; 89; 85; 1523]);
   (2669, [1; 1; 5; 3; 19; 41; 45; 51; 447; 299; 1355]);
   (2681, [1; 3; 1; 13; 1; 33; 117; 143; 313; 187; 1073]);
   (2687, [1; 1; 7; 7; 5; 11; 65; 97; 377; 377; 1501]);
   (2693, [1; 3; 1; 1; 21; 35; 95; 65; 99; 23; 1239]);
   (2705, [1; 1; 5; 9; 3; 37; 95; 167; 115; 425; 867]);
   (2717, [1; 3; 3; 13; 1; 37; 27; 189; 81; 679; 773]);
   (2727, [1; 1; 3; 11; 1; 61; 99; 233; 429; 969; 49]);
   (2731, [1; 1; 1; 7; 25; 63; 99; 165; 245; 793; 1143]);
   (2739, [1; 1; 5; 11; 11; 43; 55; 65; 71; 283; 273]);
   (2741, [1; 1; 5; 5; 9; 3; 101; 251; 355; 379; 1611]);
   (2773, [1; 1; 1; 15; 21; 63; 85; 99; 49; 749; 1335]);
   (2783, [1; 1; 5; 13; 27; 9; 121; 43; 255; 715; 289]);
   (2793, [1; 3; 1; 5; 27; 19; 17; 223; 77; 571; 1415]);
   (2799, [1; 1; 5; 3; 13; 59; 125; 251; 195; 551; 1737]);
   (2801, [1; 3; 3; 15; 13; 27; 49; 105; 389; 971; 755]);
   (2811, [1; 3; 5; 15; 23; 43; 35; 107; 447; 763; 253]);
   (2819, [1; 3; 5; 11; 21; 3; 17; 39; 497; 407; 611]);
   (2825, [1; 1; 7; 13; 15; 31; 113; 17; 23; 507; 1995]);
   (2833, [1; 1; 7; 15; 3; 15; 31; 153; 423; 79; 503]);
   (2867, [1; 1; 7; 9; 19; 25; 23; 171; 505; 923; 1989]);
   (2879, [1; 1; 5; 9; 21; 27; 121; 223; 133; 87; 697]);
   (2881, [1; 1; 5; 5; 9; 19; 107; 99; 319; 765; 1461]);
   (2891, [1; 1; 3; 3; 19; 25; 3; 101; 171; 729; 187]);
   (2905, [1; 1; 3; 1; 13; 23; 85; 93; 291; 209; 37]);
   (2911, [1; 1; 1; 15; 25; 25; 77; 253; 333; 947; 1073]);
   (2917, [1; 1; 3; 9; 17; 29; 55; 47; 255; 305; 2037]);
   (2927, [1; 3; 3; 9; 29; 63; 9; 103; 489; 939; 1523]);
   (2941, [1; 3; 7; 15; 7; 31; 89; 175; 369; 339; 595]);
   (2951, [1; 3; 7; 13; 25; 5; 71; 207; 251; 367; 665]);
   (2955, [1; 3; 3; 3; 21; 25; 75; 35; 31; 321; 1603]);
   (2963, [1; 1; 1; 9; 11; 1; 65; 5; 11; 329; 535]);
   (2965, [1; 1; 5; 3; 19; 13; 17; 43; 379; 485; 383]);
   (2991, [1; 3; 5; 13; 13; 9; 85; 147; 489; 787; 1133]);
   (2999, [1; 3; 1; 1; 5; 51; 37; 129; 195; 297; 1783]);
   (3005, [1; 1; 3; 15; 19; 57; 59; 181; 455; 697; 2033]);
   (3017, [1; 3; 7; 1; 27; 9; 65; 145; 325; 189; 201]);
   (3035, [1; 3; 1; 15; 31; 23; 19; 5; 485; 581; 539]);
   (3037, [1; 1; 7; 13; 11; 15; 65; 83; 185; 847; 831]);
   (3047, [1; 3; 5; 7; 7; 55; 73; 15; 303; 511; 1905]);
   (3053, [1; 3; 5; 9; 7; 21; 45; 15; 397; 385; 597]);
   (3083, [1; 3; 7; 3; 23; 13; 73; 221; 511; 883; 1265])
  ].
