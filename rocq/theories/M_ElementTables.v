(** GENERATED from the text of /repo/src/jaxrts/elements.py and
    absorption_edges_ionized_ions_data.py; decimal literals are exact rationals. *)
From Coq Require Import String List QArith.
Import ListNotations.
Open Scope nat_scope.
(** _element_symbols, elements.py:17-54 *)
Definition tab_symbols : list (nat * string) := [
  (1, "H"%string);
  (2, "He"%string);
  (3, "Li"%string);
  (4, "Be"%string);
  (5, "B"%string);
  (6, "C"%string);
  (7, "N"%string);
  (8, "O"%string);
  (9, "F"%string);
  (10, "Ne"%string);
  (11, "Na"%string);
  (12, "Mg"%string);
  (13, "Al"%string);
  (14, "Si"%string);
  (15, "P"%string);
  (16, "S"%string);
  (17, "Cl"%string);
  (18, "Ar"%string);
  (19, "K"%string);
  (20, "Ca"%string);
  (21, "Sc"%string);
  (22, "Ti"%string);
  (23, "V"%string);
  (24, "Cr"%string);
  (25, "Mn"%string);
  (26, "Fe"%string);
  (27, "Co"%string);
  (28, "Ni"%string);
  (29, "Cu"%string);
  (30, "Zn"%string);
  (31, "Ga"%string);
  (32, "Ge"%string);
  (33, "As"%string);
  (34, "Se"%string);
  (35, "Br"%string);
  (36, "Kr"%string)].
(** _element_names, elements.py:55-92 *)
Definition tab_names : list (nat * string) := [
  (1, "Hydrogen"%string);
  (2, "Helium"%string);
  (3, "Lithium"%string);
  (4, "Beryllium"%string);
  (5, "Boron"%string);
  (6, "Carbon"%string);
  (7, "Nitrogen"%string);
  (8, "Oxygen"%string);
  (9, "Fluorine"%string);
  (10, "Neon"%string);
  (11, "Sodium"%string);
  (12, "Magnesium"%string);
  (13, "Aluminum"%string);
  (14, "Silicon"%string);
  (15, "Phosphorus"%string);
  (16, "Sulfur"%string);
  (17, "Chlorine"%string);
  (18, "Argon"%string);
  (19, "Potassium"%string);
  (20, "Calcium"%string);
  (21, "Scandium"%string);
  (22, "Titanium"%string);
  (23, "Vanadium"%string);
  (24, "Chromium"%string);
  (25, "Manganese"%string);
  (26, "Iron"%string);
  (27, "Cobalt"%string);
  (28, "Nickel"%string);
  (29, "Copper"%string);
  (30, "Zinc"%string);
  (31, "Gallium"%string);
  (32, "Germanium"%string);
  (33, "Arsenic"%string);
  (34, "Selenium"%string);
  (35, "Bromine"%string);
  (36, "Krypton"%string)].
(** _element_masses, elements.py:93-130 *)
Definition tab_masses : list (nat * Q) := [
  (1, (126#125));
  (2, (2001301#500000));
  (3, (347#50));
  (4, (90121831#10000000));
  (5, (1081#100));
  (6, (12011#1000));
  (7, (14007#1000));
  (8, (15999#1000));
  (9, (18998403163#1000000000));
  (10, (201797#10000));
  (11, (71843029#3125000));
  (12, (4861#200));
  (13, (53963077#2000000));
  (14, (5617#200));
  (15, (15486880999#500000000));
  (16, (1603#50));
  (17, (709#20));
  (18, (9987#250));
  (19, (390983#10000));
  (20, (20039#500));
  (21, (11238977#250000));
  (22, (47867#1000));
  (23, (101883#2000));
  (24, (519961#10000));
  (25, (13734511#250000));
  (26, (11169#200));
  (27, (29466597#500000));
  (28, (293467#5000));
  (29, (31773#500));
  (30, (3269#50));
  (31, (69723#1000));
  (32, (7263#100));
  (33, (14984319#200000));
  (34, (78971#1000));
  (35, (9988#125));
  (36, (41899#500))].
(** _atomic_radii_calc, elements.py:189-226 *)
Definition tab_radii : list (nat * Q) := [
  (1, (53#1));
  (2, (31#1));
  (3, (167#1));
  (4, (112#1));
  (5, (87#1));
  (6, (67#1));
  (7, (56#1));
  (8, (48#1));
  (9, (42#1));
  (10, (38#1));
  (11, (190#1));
  (12, (145#1));
  (13, (118#1));
  (14, (111#1));
  (15, (98#1));
  (16, (88#1));
  (17, (79#1));
  (18, (71#1));
  (19, (243#1));
  (20, (194#1));
  (21, (184#1));
  (22, (176#1));
  (23, (171#1));
  (24, (166#1));
  (25, (161#1));
  (26, (156#1));
  (27, (152#1));
  (28, (149#1));
  (29, (145#1));
  (30, (142#1));
  (31, (136#1));
  (32, (125#1));
  (33, (114#1));
  (34, (103#1));
  (35, (94#1));
  (36, (88#1))].
(** _cold_absorption_edges, elements.py:385-521 *)
Definition tab_cold_edges : list (nat * list Q) := [
  (1, [(68#5); (0#1); (0#1); (0#1); (0#1); (0#1); (0#1); (0#1); (0#1)]);
  (2, [(123#5); (0#1); (0#1); (0#1); (0#1); (0#1); (0#1); (0#1); (0#1)]);
  (3, [(274#5); (53#10); (0#1); (0#1); (0#1); (0#1); (0#1); (0#1); (0#1)]);
  (4, [(223#2); (8#1); (3#1); (0#1); (0#1); (0#1); (0#1); (0#1); (0#1)]);
  (5, [(188#1); (63#5); (47#10); (0#1); (0#1); (0#1); (0#1); (0#1); (0#1)]);
  (6, [(1421#5); (18#1); (36#5); (0#1); (0#1); (0#1); (0#1); (0#1); (0#1)]);
  (7, [(4099#10); (373#10); (35#2); (0#1); (0#1); (0#1); (0#1); (0#1); (0#1)]);
  (8, [(5431#10); (208#5); (91#5); (0#1); (0#1); (0#1); (0#1); (0#1); (0#1)]);
  (9, [(6967#10); (45#1); (199#10); (0#1); (0#1); (0#1); (0#1); (0#1); (0#1)]);
  (10, [(4351#5); (97#2); (433#20); (0#1); (0#1); (0#1); (0#1); (0#1); (0#1)]);
  (11, [(5354#5); (127#2); (152#5); (0#1); (0#1); (0#1); (0#1); (0#1); (0#1)]);
  (12, [(1303#1); (443#5); (247#5); (2#1); (1#1); (0#1); (0#1); (0#1); (0#1)]);
  (13, [(1559#1); (589#5); (727#10); (4#1); (2#1); (0#1); (0#1); (0#1); (0#1)]);
  (14, [(1839#1); (1497#10); (199#2); (8#1); (2#1); (0#1); (0#1); (0#1); (0#1)]);
  (15, [(4291#2); (189#1); (271#2); (12#1); (13#2); (0#1); (0#1); (0#1); (0#1)]);
  (16, [(2472#1); (2309#10); (3261#20); (14#1); (15#2); (0#1); (0#1); (0#1); (0#1)]);
  (17, [(2822#1); (270#1); (201#1); (18#1); (10#1); (0#1); (0#1); (0#1); (0#1)]);
  (18, [(32059#10); (3263#10); (2493#10); (293#10); (79#5); (0#1); (0#1); (0#1); (0#1); (0#1)]);
  (19, [(18042#5); (1893#5); (5899#20); (174#5); (183#10); (0#1); (0#1); (0#1); (0#1); (0#1)]);
  (20, [(8077#2); (2192#5); (6959#20); (443#10); (127#5); (0#1); (0#1); (0#1); (0#1); (0#1)]);
  (21, [(4492#1); (498#1); (8023#20); (511#10); (283#10); (0#1); (0#1); (0#1); (0#1); (0#1)]);
  (22, [(4966#1); (5609#10); (457#1); (587#10); (163#5); (2#1); (0#1); (0#1); (0#1); (0#1)]);
  (23, [(5465#1); (6267#10); (10319#20); (663#10); (186#5); (2#1); (0#1); (0#1); (0#1); (0#1)]);
  (24, [(5989#1); (696#1); (11579#20); (741#10); (211#5); (2#1); (0#1); (0#1); (0#1); (0#1)]);
  (25, [(6539#1); (7691#10); (6443#10); (823#10); (236#5); (2#1); (0#1); (0#1); (0#1); (0#1)]);
  (26, [(7112#1); (4223#5); (14267#20); (913#10); (527#10); (2#1); (0#1); (0#1); (0#1); (0#1)]);
  (27, [(7709#1); (9251#10); (15713#20); (101#1); (589#10); (3#1); (0#1); (0#1); (0#1); (0#1)]);
  (28, [(8333#1); (5043#5); (17227#20); (554#5); (671#10); (4#1); (0#1); (0#1); (0#1); (0#1)]);
  (29, [(8979#1); (10967#10); (1885#2); (245#2); (381#5); (5#1); (0#1); (0#1); (0#1); (0#1)]);
  (30, [(9659#1); (5981#5); (20667#20); (699#5); (90#1); (203#20); (0#1); (1#1); (0#1); (0#1)]);
  (31, [(10367#1); (1299#1); (5649#5); (15951#100); (407#4); (187#10); (1#1); (2#1); (0#1); (0#1)]);
  (32, [(11103#1); (7073#5); (24651#20); (1801#10); (2457#20); (59#2); (5#1); (3#1); (0#1); (0#1)]);
  (33, [(11867#1); (1527#1); (26827#20); (2047#10); (1437#10); (417#10); (8#1); (3#1); (0#1); (0#1)]);
  (34, [(12658#1); (1652#1); (14541#10); (1148#5); (818#5); (1389#25); (12#1); (3#1); (0#1); (0#1)]);
  (35, [(13474#1); (1782#1); (1573#1); (257#1); (371#2); (139#2); (27#1); (3#1); (0#1); (0#1)]);
  (36, [(14326#1); (1921#1); (34093#20); (1464#5); (2183#10); (472#5); (55#2); (141#10); (0#1); (0#1)])].
(** _ionization_energies, elements.py:565-667 *)
Definition tab_energies : list (nat * list Q) := [
  (1, [(6799217299851#500000000000)]);
  (2, [(24587389011#1000000000); (272088827641#5000000000)]);
  (3, [(1347928749#250000000); (75640097#1000000); (12245435913#100000000)]);
  (4, [(9322699#1000000); (364223#20000); (30779241#200000); (21771858459#100000000)]);
  (5, [(8298019#1000000); (2515483#100000); (3793059#100000); (259374379#1000000); (136090409#400000)]);
  (6, [(175942#15625); (24383143#1000000); (2394389#50000); (806169#12500); (1225283#3125); (48999320779#100000000)]);
  (7, [(1453413#100000); (23681#800); (474453#10000); (154947#2000); (978901#10000); (55206741#100000); (6670461377#10000000)]);
  (8, [(2723611#200000); (219507#6250); (2746777#50000); (154827#2000); (113899#1000); (1381189#10000); (73932697#100000); (4357049569#5000000)]);
  (9, [(871141#50000); (3497081#100000); (3135399#50000); (3487#40); (5515587651#5000000); (114249#1000); (15716311#100000); (462967#2500); (9538983#10000)]);
  (10, [(21564541#1000000); (4096297#100000); (634233#10000); (9719#100); (5979041#5000); (126247#1000); (78967#500); (207271#1000); (239097#1000); (170274907#125000)]);
  (11, [(32119231#6250000); (1182159#25000); (3581#50); (12367#125); (37482#125); (34601#250); (17223#100); (26063#125); (33024#125); (915687#625); (329740457#200000)]);
  (12, [(1911559#250000); (15035271#1000000); (200359#2500); (546327#5000); (32799#100); (14133#100); (4669#25); (11251#50); (66481#250); (367489#1000); (17618049#10000); (1962663889#1000000)]);
  (13, [(5985769#1000000); (376571#20000); (14223821#500000); (299981#2500); (33021#100); (384563#2500); (19049#100); (6044#25); (7116#25); (7973#20); (88401#200); (208597693#100000); (2304140359#1000000)]);
  (14, [(25474#3125); (326917#20000); (33493#1000); (4514179#100000); (8782#25); (166767#1000); (205279#1000); (24657#100); (30359#100); (20069#50); (476273#1000); (104683#200); (48753161#20000); (1336588979#500000)]);
  (15, [(5243343#500000); (1976949#100000); (377533#12500); (5144387#100000); (37231#100); (6502511#100000); (22043#100); (26357#100); (1548#5); (2122#5); (11986#25); (28031#50); (611741#1000); (70422717#25000); (613968429#200000)]);
  (16, [(1036001#100000); (583447#25000); (1743#50); (23611#500); (9496#25); (145189#2000); (880529#10000); (140477#500); (164397#500); (4477#10); (10091#20); (56441#100); (16299#25); (353497#500); (322378057#100000); (1747094259#500000)]);
  (17, [(12967633#1000000); (595341#25000); (199#5); (1331#25); (400851#1000); (1692#25); (4847#50); (1142013#10000); (174153#500); (4567#10); (530#1); (29579#50); (6563#10); (75023#100); (404599#500); (182917183#50000); (394629179#100000)]);
  (18, [(157596119#10000000); (2762967#100000); (8147#200); (2979#50); (2113#5); (1871#25); (9129#100); (12441#100); (1434567#10000); (11994#25); (2702#5); (619#1); (1371#2); (75513#100); (1711#2); (7347#8); (412066559#100000); (442622407#100000)]);
  (19, [(434066373#100000000); (253#8); (458031#10000); (60917#1000); (879087#5000); (4133#50); (2486#25); (2939#25); (15487#100); (50367#100); (2828#5); (6311#10); (7147#10); (7863#10); (493404979#100000); (21523#25); (9677#10); (517271#500); (230540357#50000)]);
  (20, [(611315547#100000000); (11871719#1000000); (1272829#25000); (168183#2500); (9427#50); (4217#50); (5439#50); (12721#100); (3681#25); (8451#40); (2958#5); (3291#5); (3643#5); (4086#5); (3205536#625); (894#1); (9737#10); (5434#5); (578863#500); (273493179#50000)]);
  (21, [(656149#100000); (1279977#100000); (24756839#1000000); (367447#5000); (18003#100); (1839#20); (2767#25); (13799#100); (3952#25); (11259#50); (124899#500); (17184#25); (7577#10); (4166#5); (1287957#1000); (1853#2); (5043#5); (2187#2); (12131#10); (14187259#2500); (603375643#100000)]);
  (22, [(170703#25000); (27151#2000); (2749171#100000); (4326717#100000); (1921#10); (99299#1000); (119533#1000); (3517#25); (341#2); (5398#25); (26507#100); (583#2); (78767#100); (864#1); (13463#10); (1889#2); (2085#2); (5651#5); (12203#10); (1425257#1000); (31245113#5000); (662581023#100000)]);
  (23, [(6746187#1000000); (7317#500); (293111#10000); (46709#1000); (206#1); (1305633#20000); (1025#8); (3768#25); (3471#20); (461#2); (1274#5); (617#2); (168137#500); (896#1); (6771#5); (4886#5); (10629#10); (5826#5); (12589#10); (14867#10); (196207#125); (8564139#1250); (45288289#6250)]);
  (24, [(676651#100000); (3297261#200000); (30959#1000); (1229#25); (419#2); (3473#50); (906349#10000); (16029#100); (4619#25); (489#2); (1354#5); (2967#10); (3547#10); (384163#1000); (2789#2); (5058#5); (5486#5); (1188#1); (6474#5); (14951#10); (16341#10); (1721183#1000); (4676164#625); (789480289#100000)]);
  (25, [(3717019#500000); (1563999#100000); (8417#250); (5121#100); (22189#100); (7241#100); (23901#250); (119203#1000); (391#2); (1243#5); (2861#10); (1572#5); (1718#5); (8059#20); (14309#10); (108793#250); (11337#10); (12241#10); (13203#10); (7686#5); (8216#5); (17887#10); (1879873#1000); (10175983#1250); (428597719#50000)]);
  (26, [(79024681#10000000); (1619921#100000); (30651#1000); (5491#100); (1168#5); (75#1); (19797#200); (1249671#10000); (7553#50); (2621#10); (2909#10); (1654#5); (361#1); (1961#5); (1460#1); (2281#5); (61164#125); (12627#10); (6789#5); (7878#5); (1687#1); (8992#5); (9752#5); (2045759#1000); (11035233#1250); (46388443#5000)]);
  (27, [(788101#100000); (42711#2500); (67#2); (5127#100); (9307#50); (159#2); (102#1); (1289#10); (789#5); (1377#5); (7633#25); (3361#10); (757#2); (410#1); (3009#2); (4411#10); (12799#25); (136647#250); (6986#5); (1606#1); (1724#1); (1844#1); (9804#5); (10597#5); (554719#250); (95441817#10000); (100121297#10000)]);
  (28, [(3819939#500000); (9084419#500000); (35187#1000); (1373#25); (966#5); (3803#50); (108#1); (132#1); (162#1); (2247#10); (639#2); (1758#5); (769#2); (4293#10); (15401#10); (2314#5); (2477#5); (57107#100); (30351#50); (1646#1); (1758#1); (1880#1); (20081#10); (4261#2); (11478#5); (2399259#1000); (6430553#625); (26938487#2500)]);
  (29, [(386319#50000); (2029239#100000); (36841#1000); (2869#50); (198#1); (399#5); (103#1); (139#1); (166#1); (1161#5); (26533#100); (367#1); (401#1); (436#1); (83826#125); (4831#10); (5187#10); (2764#5); (1265#2); (3381#2); (1800#1); (1918#1); (2044#1); (10897#5); (115676237#10000); (23073#10); (24791#10); (1293477#500); (110624309#10000)]);
  (30, [(9394197#1000000); (1796439#100000); (397233#10000); (59573#1000); (203#1); (413#5); (108#1); (1339#10); (1739#10); (238#1); (1372#5); (1554#5); (2088#5); (2267#5); (1395#2); (2453#5); (540#1); (2889#5); (6133#10); (368683#500); (9234#5); (1961#1); (2085#1); (2214#1); (118649401#10000); (2358#1); (4983#2); (26699#10); (695499#250); (123889427#10000)]);
  (31, [(2999651#500000); (1025757#50000); (96018#3125); (63241#1000); (211#1); (8601#100); (1127#10); (704#5); (1699#10); (244#1); (280#1); (319#1); (356#1); (2356#5); (677#1); (2544#5); (5483#10); (2999#5); (640#1); (7657#10); (201827#250); (2010#1); (2129#1); (2258#1); (1492213#500); (2391#1); (25439#10); (2683#1); (2868#1); (126965581#10000); (132395029#10000)]);
  (32, [(1579887#200000); (1593461#100000); (21286#625); (91431#2000); (425#2); (181#2); (1159#10); (1449#10); (882#5); (2521#10); (286#1); (326#1); (367#1); (407#1); (7067#10); (5279#10); (5673#10); (6091#10); (3314#5); (744#1); (8371#10); (22011#25); (10891#5); (2304#1); (3074#1); (2439#1); (2575#1); (27371#10); (28819#10); (3194293#1000); (67787109#5000); (141194457#10000)]);
  (33, [(195771#20000); (46473#2500); (28349#1000); (1003#20); (213#1); (6277#100); (12119#100); (147#1); (180#1); (247#1); (296#1); (333#1); (375#1); (418#1); (7289#10); (460#1); (2938#5); (3144#5); (6729#10); (774#1); (814#1); (9117#10); (95679#100); (23569#10); (30881#10); (2486#1); (2626#1); (2766#1); (2938#1); (3287#1); (3411643#1000); (144476799#10000); (150289251#10000)]);
  (34, [(609523#62500); (5299#250); (31697#1000); (42947#1000); (219#1); (683#10); (8183#100); (155327#1000); (184#1); (255#1); (291#1); (3429#10); (383#1); (426#1); (3699#5); (473#1); (517#1); (1301#2); (3467#5); (798#1); (4229#5); (887#1); (4948#5); (25909#25); (3146#1); (25407#10); (2674#1); (2820#1); (2964#1); (16509#5); (3507#1); (1818263#500); (15367493#1000); (6387243#400)]);
  (35, [(1181381#100000); (21591#1000); (34871#1000); (23891#500); (224#1); (11919#200); (8739#100); (10303#100); (19261#100); (261#1); (301#1); (338#1); (393#1); (436#1); (761#1); (481#1); (530#1); (577#1); (7163#10); (4049#5); (870#1); (4604#5); (963#1); (5353#5); (3169#1); (111917#100); (13657#5); (2869#1); (3021#1); (3361#1); (35231#10); (3735#1); (1934493#500); (8158507#500); (169371497#10000)]);
  (36, [(27999211#2000000); (152249#6250); (17919#500); (1017#20); (233#1); (6469#100); (7849#100); (10913#100); (62901#500); (268#1); (308#1); (350#1); (391#1); (446#1); (196329#250); (492#1); (540#1); (591#1); (640#1); (4158#5); (4414#5); (945#1); (999#1); (1042#1); (3228#1); (1155#1); (120523#100); (29289#10); (3072#1); (3380#1); (3584#1); (3752#1); (3971#1); (4109083#1000); (2162053#125); (35872481#2000)])].
(** _ionization_econf, elements.py:677-1452 *)
Definition tab_econf : list (nat * list (list nat)) := [
  (1, [[1; 0; 0; 0; 0; 0; 0; 0; 0; 0];
    [0; 0; 0; 0; 0; 0; 0; 0; 0; 0]]);
  (2, [[2; 0; 0; 0; 0; 0; 0; 0; 0; 0];
    [1; 0; 0; 0; 0; 0; 0; 0; 0; 0];
    [0; 0; 0; 0; 0; 0; 0; 0; 0; 0]]);
  (3, [[2; 1; 0; 0; 0; 0; 0; 0; 0; 0];
    [2; 0; 0; 0; 0; 0; 0; 0; 0; 0];
    [1; 0; 0; 0; 0; 0; 0; 0; 0; 0];
    [0; 0; 0; 0; 0; 0; 0; 0; 0; 0]]);
  (4, [[2; 2; 0; 0; 0; 0; 0; 0; 0; 0];
    [2; 1; 0; 0; 0; 0; 0; 0; 0; 0];
    [2; 0; 0; 0; 0; 0; 0; 0; 0; 0];
    [1; 0; 0; 0; 0; 0; 0; 0; 0; 0];
    [0; 0; 0; 0; 0; 0; 0; 0; 0; 0]]);
  (5, [[2; 2; 1; 0; 0; 0; 0; 0; 0; 0];
    [2; 2; 0; 0; 0; 0; 0; 0; 0; 0];
    [2; 1; 0; 0; 0; 0; 0; 0; 0; 0];
    [2; 0; 0; 0; 0; 0; 0; 0; 0; 0];
    [1; 0; 0; 0; 0; 0; 0; 0; 0; 0];
    [0; 0; 0; 0; 0; 0; 0; 0; 0; 0]]);
  (6, [[2; 2; 2; 0; 0; 0; 0; 0; 0; 0];
    [2; 2; 1; 0; 0; 0; 0; 0; 0; 0];
    [2; 2; 0; 0; 0; 0; 0; 0; 0; 0];
    [2; 1; 0; 0; 0; 0; 0; 0; 0; 0];
    [2; 0; 0; 0; 0; 0; 0; 0; 0; 0];
    [1; 0; 0; 0; 0; 0; 0; 0; 0; 0];
    [0; 0; 0; 0; 0; 0; 0; 0; 0; 0]]);
  (7, [[2; 2; 3; 0; 0; 0; 0; 0; 0; 0];
    [2; 2; 2; 0; 0; 0; 0; 0; 0; 0];
    [2; 2; 1; 0; 0; 0; 0; 0; 0; 0];
    [2; 2; 0; 0; 0; 0; 0; 0; 0; 0];
    [2; 1; 0; 0; 0; 0; 0; 0; 0; 0];
    [2; 0; 0; 0; 0; 0; 0; 0; 0; 0];
    [1; 0; 0; 0; 0; 0; 0; 0; 0; 0];
    [0; 0; 0; 0; 0; 0; 0; 0; 0; 0]]);
  (8, [[2; 2; 4; 0; 0; 0; 0; 0; 0; 0];
    [2; 2; 3; 0; 0; 0; 0; 0; 0; 0];
    [2; 2; 2; 0; 0; 0; 0; 0; 0; 0];
    [2; 2; 1; 0; 0; 0; 0; 0; 0; 0];
    [2; 2; 0; 0; 0; 0; 0; 0; 0; 0];
    [2; 1; 0; 0; 0; 0; 0; 0; 0; 0];
    [2; 0; 0; 0; 0; 0; 0; 0; 0; 0];
    [1; 0; 0; 0; 0; 0; 0; 0; 0; 0];
    [0; 0; 0; 0; 0; 0; 0; 0; 0; 0]]);
  (9, [[2; 2; 5; 0; 0; 0; 0; 0; 0; 0];
    [2; 2; 4; 0; 0; 0; 0; 0; 0; 0];
    [2; 2; 3; 0; 0; 0; 0; 0; 0; 0];
    [2; 2; 2; 0; 0; 0; 0; 0; 0; 0];
    [2; 2; 1; 0; 0; 0; 0; 0; 0; 0];
    [2; 2; 0; 0; 0; 0; 0; 0; 0; 0];
    [2; 1; 0; 0; 0; 0; 0; 0; 0; 0];
    [2; 0; 0; 0; 0; 0; 0; 0; 0; 0];
    [1; 0; 0; 0; 0; 0; 0; 0; 0; 0];
    [0; 0; 0; 0; 0; 0; 0; 0; 0; 0]]);
  (10, [[2; 2; 6; 0; 0; 0; 0; 0; 0; 0];
    [2; 2; 5; 0; 0; 0; 0; 0; 0; 0];
    [2; 2; 4; 0; 0; 0; 0; 0; 0; 0];
    [2; 2; 3; 0; 0; 0; 0; 0; 0; 0];
    [2; 2; 2; 0; 0; 0; 0; 0; 0; 0];
    [2; 2; 1; 0; 0; 0; 0; 0; 0; 0];
    [2; 2; 0; 0; 0; 0; 0; 0; 0; 0];
    [2; 1; 0; 0; 0; 0; 0; 0; 0; 0];
    [2; 0; 0; 0; 0; 0; 0; 0; 0; 0];
    [1; 0; 0; 0; 0; 0; 0; 0; 0; 0];
    [0; 0; 0; 0; 0; 0; 0; 0; 0; 0]]);
  (11, [[2; 2; 6; 1; 0; 0; 0; 0; 0; 0];
    [2; 2; 6; 0; 0; 0; 0; 0; 0; 0];
    [2; 2; 5; 0; 0; 0; 0; 0; 0; 0];
    [2; 2; 4; 0; 0; 0; 0; 0; 0; 0];
    [2; 2; 3; 0; 0; 0; 0; 0; 0; 0];
    [2; 2; 2; 0; 0; 0; 0; 0; 0; 0];
    [2; 2; 1; 0; 0; 0; 0; 0; 0; 0];
    [2; 2; 0; 0; 0; 0; 0; 0; 0; 0];
    [2; 1; 0; 0; 0; 0; 0; 0; 0; 0];
    [2; 0; 0; 0; 0; 0; 0; 0; 0; 0];
    [1; 0; 0; 0; 0; 0; 0; 0; 0; 0];
    [0; 0; 0; 0; 0; 0; 0; 0; 0; 0]]);
  (12, [[2; 2; 6; 2; 0; 0; 0; 0; 0; 0];
    [2; 2; 6; 1; 0; 0; 0; 0; 0; 0];
    [2; 2; 6; 0; 0; 0; 0; 0; 0; 0];
    [2; 2; 5; 0; 0; 0; 0; 0; 0; 0];
    [2; 2; 4; 0; 0; 0; 0; 0; 0; 0];
    [2; 2; 3; 0; 0; 0; 0; 0; 0; 0];
    [2; 2; 2; 0; 0; 0; 0; 0; 0; 0];
    [2; 2; 1; 0; 0; 0; 0; 0; 0; 0];
    [2; 2; 0; 0; 0; 0; 0; 0; 0; 0];
    [2; 1; 0; 0; 0; 0; 0; 0; 0; 0];
    [2; 0; 0; 0; 0; 0; 0; 0; 0; 0];
    [1; 0; 0; 0; 0; 0; 0; 0; 0; 0];
    [0; 0; 0; 0; 0; 0; 0; 0; 0; 0]]);
  (13, [[2; 2; 6; 2; 1; 0; 0; 0; 0; 0];
    [2; 2; 6; 2; 0; 0; 0; 0; 0; 0];
    [2; 2; 6; 1; 0; 0; 0; 0; 0; 0];
    [2; 2; 6; 0; 0; 0; 0; 0; 0; 0];
    [2; 2; 5; 0; 0; 0; 0; 0; 0; 0];
    [2; 2; 4; 0; 0; 0; 0; 0; 0; 0];
    [2; 2; 3; 0; 0; 0; 0; 0; 0; 0];
    [2; 2; 2; 0; 0; 0; 0; 0; 0; 0];
    [2; 2; 1; 0; 0; 0; 0; 0; 0; 0];
    [2; 2; 0; 0; 0; 0; 0; 0; 0; 0];
    [2; 1; 0; 0; 0; 0; 0; 0; 0; 0];
    [2; 0; 0; 0; 0; 0; 0; 0; 0; 0];
    [1; 0; 0; 0; 0; 0; 0; 0; 0; 0];
    [0; 0; 0; 0; 0; 0; 0; 0; 0; 0]]);
  (14, [[2; 2; 6; 2; 2; 0; 0; 0; 0; 0];
    [2; 2; 6; 2; 1; 0; 0; 0; 0; 0];
    [2; 2; 6; 2; 0; 0; 0; 0; 0; 0];
    [2; 2; 6; 1; 0; 0; 0; 0; 0; 0];
    [2; 2; 6; 0; 0; 0; 0; 0; 0; 0];
    [2; 2; 5; 0; 0; 0; 0; 0; 0; 0];
    [2; 2; 4; 0; 0; 0; 0; 0; 0; 0];
    [2; 2; 3; 0; 0; 0; 0; 0; 0; 0];
    [2; 2; 2; 0; 0; 0; 0; 0; 0; 0];
    [2; 2; 1; 0; 0; 0; 0; 0; 0; 0];
    [2; 2; 0; 0; 0; 0; 0; 0; 0; 0];
    [2; 1; 0; 0; 0; 0; 0; 0; 0; 0];
    [2; 0; 0; 0; 0; 0; 0; 0; 0; 0];
    [1; 0; 0; 0; 0; 0; 0; 0; 0; 0];
    [0; 0; 0; 0; 0; 0; 0; 0; 0; 0]]);
  (15, [[2; 2; 6; 2; 3; 0; 0; 0; 0; 0];
    [2; 2; 6; 2; 2; 0; 0; 0; 0; 0];
    [2; 2; 6; 2; 1; 0; 0; 0; 0; 0];
    [2; 2; 6; 2; 0; 0; 0; 0; 0; 0];
    [2; 2; 6; 1; 0; 0; 0; 0; 0; 0];
    [2; 2; 6; 0; 0; 0; 0; 0; 0; 0];
    [2; 2; 5; 0; 0; 0; 0; 0; 0; 0];
    [2; 2; 4; 0; 0; 0; 0; 0; 0; 0];
    [2; 2; 3; 0; 0; 0; 0; 0; 0; 0];
    [2; 2; 2; 0; 0; 0; 0; 0; 0; 0];
    [2; 2; 1; 0; 0; 0; 0; 0; 0; 0];
    [2; 2; 0; 0; 0; 0; 0; 0; 0; 0];
    [2; 1; 0; 0; 0; 0; 0; 0; 0; 0];
    [2; 0; 0; 0; 0; 0; 0; 0; 0; 0];
    [1; 0; 0; 0; 0; 0; 0; 0; 0; 0];
    [0; 0; 0; 0; 0; 0; 0; 0; 0; 0]]);
  (16, [[2; 2; 6; 2; 4; 0; 0; 0; 0; 0];
    [2; 2; 6; 2; 3; 0; 0; 0; 0; 0];
    [2; 2; 6; 2; 2; 0; 0; 0; 0; 0];
    [2; 2; 6; 2; 1; 0; 0; 0; 0; 0];
    [2; 2; 6; 2; 0; 0; 0; 0; 0; 0];
    [2; 2; 6; 1; 0; 0; 0; 0; 0; 0];
    [2; 2; 6; 0; 0; 0; 0; 0; 0; 0];
    [2; 2; 5; 0; 0; 0; 0; 0; 0; 0];
    [2; 2; 4; 0; 0; 0; 0; 0; 0; 0];
    [2; 2; 3; 0; 0; 0; 0; 0; 0; 0];
    [2; 2; 2; 0; 0; 0; 0; 0; 0; 0];
    [2; 2; 1; 0; 0; 0; 0; 0; 0; 0];
    [2; 2; 0; 0; 0; 0; 0; 0; 0; 0];
    [2; 1; 0; 0; 0; 0; 0; 0; 0; 0];
    [2; 0; 0; 0; 0; 0; 0; 0; 0; 0];
    [1; 0; 0; 0; 0; 0; 0; 0; 0; 0];
    [0; 0; 0; 0; 0; 0; 0; 0; 0; 0]]);
  (17, [[2; 2; 6; 2; 5; 0; 0; 0; 0; 0];
    [2; 2; 6; 2; 4; 0; 0; 0; 0; 0];
    [2; 2; 6; 2; 3; 0; 0; 0; 0; 0];
    [2; 2; 6; 2; 2; 0; 0; 0; 0; 0];
    [2; 2; 6; 2; 1; 0; 0; 0; 0; 0];
    [2; 2; 6; 2; 0; 0; 0; 0; 0; 0];
    [2; 2; 6; 1; 0; 0; 0; 0; 0; 0];
    [2; 2; 6; 0; 0; 0; 0; 0; 0; 0];
    [2; 2; 5; 0; 0; 0; 0; 0; 0; 0];
    [2; 2; 4; 0; 0; 0; 0; 0; 0; 0];
    [2; 2; 3; 0; 0; 0; 0; 0; 0; 0];
    [2; 2; 2; 0; 0; 0; 0; 0; 0; 0];
    [2; 2; 1; 0; 0; 0; 0; 0; 0; 0];
    [2; 2; 0; 0; 0; 0; 0; 0; 0; 0];
    [2; 1; 0; 0; 0; 0; 0; 0; 0; 0];
    [2; 0; 0; 0; 0; 0; 0; 0; 0; 0];
    [1; 0; 0; 0; 0; 0; 0; 0; 0; 0];
    [0; 0; 0; 0; 0; 0; 0; 0; 0; 0]]);
  (18, [[2; 2; 6; 2; 6; 0; 0; 0; 0; 0];
    [2; 2; 6; 2; 5; 0; 0; 0; 0; 0];
    [2; 2; 6; 2; 4; 0; 0; 0; 0; 0];
    [2; 2; 6; 2; 3; 0; 0; 0; 0; 0];
    [2; 2; 6; 2; 2; 0; 0; 0; 0; 0];
    [2; 2; 6; 2; 1; 0; 0; 0; 0; 0];
    [2; 2; 6; 2; 0; 0; 0; 0; 0; 0];
    [2; 2; 6; 1; 0; 0; 0; 0; 0; 0];
    [2; 2; 6; 0; 0; 0; 0; 0; 0; 0];
    [2; 2; 5; 0; 0; 0; 0; 0; 0; 0];
    [2; 2; 4; 0; 0; 0; 0; 0; 0; 0];
    [2; 2; 3; 0; 0; 0; 0; 0; 0; 0];
    [2; 2; 2; 0; 0; 0; 0; 0; 0; 0];
    [2; 2; 1; 0; 0; 0; 0; 0; 0; 0];
    [2; 2; 0; 0; 0; 0; 0; 0; 0; 0];
    [2; 1; 0; 0; 0; 0; 0; 0; 0; 0];
    [2; 0; 0; 0; 0; 0; 0; 0; 0; 0];
    [1; 0; 0; 0; 0; 0; 0; 0; 0; 0];
    [0; 0; 0; 0; 0; 0; 0; 0; 0; 0]]);
  (19, [[2; 2; 6; 2; 6; 0; 1; 0; 0; 0];
    [2; 2; 6; 2; 6; 0; 0; 0; 0; 0];
    [2; 2; 6; 2; 5; 0; 0; 0; 0; 0];
    [2; 2; 6; 2; 4; 0; 0; 0; 0; 0];
    [2; 2; 6; 2; 3; 0; 0; 0; 0; 0];
    [2; 2; 6; 2; 2; 0; 0; 0; 0; 0];
    [2; 2; 6; 2; 1; 0; 0; 0; 0; 0];
    [2; 2; 6; 2; 0; 0; 0; 0; 0; 0];
    [2; 2; 6; 1; 0; 0; 0; 0; 0; 0];
    [2; 2; 6; 0; 0; 0; 0; 0; 0; 0];
    [2; 2; 5; 0; 0; 0; 0; 0; 0; 0];
    [2; 2; 4; 0; 0; 0; 0; 0; 0; 0];
    [2; 2; 3; 0; 0; 0; 0; 0; 0; 0];
    [2; 2; 2; 0; 0; 0; 0; 0; 0; 0];
    [2; 2; 1; 0; 0; 0; 0; 0; 0; 0];
    [2; 2; 0; 0; 0; 0; 0; 0; 0; 0];
    [2; 1; 0; 0; 0; 0; 0; 0; 0; 0];
    [2; 0; 0; 0; 0; 0; 0; 0; 0; 0];
    [1; 0; 0; 0; 0; 0; 0; 0; 0; 0];
    [0; 0; 0; 0; 0; 0; 0; 0; 0; 0]]);
  (20, [[2; 2; 6; 2; 6; 0; 2; 0; 0; 0];
    [2; 2; 6; 2; 6; 0; 1; 0; 0; 0];
    [2; 2; 6; 2; 6; 0; 0; 0; 0; 0];
    [2; 2; 6; 2; 5; 0; 0; 0; 0; 0];
    [2; 2; 6; 2; 4; 0; 0; 0; 0; 0];
    [2; 2; 6; 2; 3; 0; 0; 0; 0; 0];
    [2; 2; 6; 2; 2; 0; 0; 0; 0; 0];
    [2; 2; 6; 2; 1; 0; 0; 0; 0; 0];
    [2; 2; 6; 2; 0; 0; 0; 0; 0; 0];
    [2; 2; 6; 1; 0; 0; 0; 0; 0; 0];
    [2; 2; 6; 0; 0; 0; 0; 0; 0; 0];
    [2; 2; 5; 0; 0; 0; 0; 0; 0; 0];
    [2; 2; 4; 0; 0; 0; 0; 0; 0; 0];
    [2; 2; 3; 0; 0; 0; 0; 0; 0; 0];
    [2; 2; 2; 0; 0; 0; 0; 0; 0; 0];
    [2; 2; 1; 0; 0; 0; 0; 0; 0; 0];
    [2; 2; 0; 0; 0; 0; 0; 0; 0; 0];
    [2; 1; 0; 0; 0; 0; 0; 0; 0; 0];
    [2; 0; 0; 0; 0; 0; 0; 0; 0; 0];
    [1; 0; 0; 0; 0; 0; 0; 0; 0; 0];
    [0; 0; 0; 0; 0; 0; 0; 0; 0; 0]]);
  (21, [[2; 2; 6; 2; 6; 1; 2; 0; 0; 0];
    [2; 2; 6; 2; 6; 1; 1; 0; 0; 0];
    [2; 2; 6; 2; 6; 1; 0; 0; 0; 0];
    [2; 2; 6; 2; 6; 0; 0; 0; 0; 0];
    [2; 2; 6; 2; 5; 0; 0; 0; 0; 0];
    [2; 2; 6; 2; 4; 0; 0; 0; 0; 0];
    [2; 2; 6; 2; 3; 0; 0; 0; 0; 0];
    [2; 2; 6; 2; 2; 0; 0; 0; 0; 0];
    [2; 2; 6; 2; 1; 0; 0; 0; 0; 0];
    [2; 2; 6; 2; 0; 0; 0; 0; 0; 0];
    [2; 2; 6; 1; 0; 0; 0; 0; 0; 0];
    [2; 2; 6; 0; 0; 0; 0; 0; 0; 0];
    [2; 2; 5; 0; 0; 0; 0; 0; 0; 0];
    [2; 2; 4; 0; 0; 0; 0; 0; 0; 0];
    [2; 2; 3; 0; 0; 0; 0; 0; 0; 0];
    [2; 2; 2; 0; 0; 0; 0; 0; 0; 0];
    [2; 2; 1; 0; 0; 0; 0; 0; 0; 0];
    [2; 2; 0; 0; 0; 0; 0; 0; 0; 0];
    [2; 1; 0; 0; 0; 0; 0; 0; 0; 0];
    [2; 0; 0; 0; 0; 0; 0; 0; 0; 0];
    [1; 0; 0; 0; 0; 0; 0; 0; 0; 0];
    [0; 0; 0; 0; 0; 0; 0; 0; 0; 0]]);
  (22, [[2; 2; 6; 2; 6; 2; 2; 0; 0; 0];
    [2; 2; 6; 2; 6; 2; 1; 0; 0; 0];
    [2; 2; 6; 2; 6; 2; 0; 0; 0; 0];
    [2; 2; 6; 2; 6; 1; 0; 0; 0; 0];
    [2; 2; 6; 2; 6; 0; 0; 0; 0; 0];
    [2; 2; 6; 2; 5; 0; 0; 0; 0; 0];
    [2; 2; 6; 2; 4; 0; 0; 0; 0; 0];
    [2; 2; 6; 2; 3; 0; 0; 0; 0; 0];
    [2; 2; 6; 2; 2; 0; 0; 0; 0; 0];
    [2; 2; 6; 2; 1; 0; 0; 0; 0; 0];
    [2; 2; 6; 2; 0; 0; 0; 0; 0; 0];
    [2; 2; 6; 1; 0; 0; 0; 0; 0; 0];
    [2; 2; 6; 0; 0; 0; 0; 0; 0; 0];
    [2; 2; 5; 0; 0; 0; 0; 0; 0; 0];
    [2; 2; 4; 0; 0; 0; 0; 0; 0; 0];
    [2; 2; 3; 0; 0; 0; 0; 0; 0; 0];
    [2; 2; 2; 0; 0; 0; 0; 0; 0; 0];
    [2; 2; 1; 0; 0; 0; 0; 0; 0; 0];
    [2; 2; 0; 0; 0; 0; 0; 0; 0; 0];
    [2; 1; 0; 0; 0; 0; 0; 0; 0; 0];
    [2; 0; 0; 0; 0; 0; 0; 0; 0; 0];
    [1; 0; 0; 0; 0; 0; 0; 0; 0; 0];
    [0; 0; 0; 0; 0; 0; 0; 0; 0; 0]]);
  (23, [[2; 2; 6; 2; 6; 3; 2; 0; 0; 0];
    [2; 2; 6; 2; 6; 3; 1; 0; 0; 0];
    [2; 2; 6; 2; 6; 3; 0; 0; 0; 0];
    [2; 2; 6; 2; 6; 2; 0; 0; 0; 0];
    [2; 2; 6; 2; 6; 1; 0; 0; 0; 0];
    [2; 2; 6; 2; 6; 0; 0; 0; 0; 0];
    [2; 2; 6; 2; 5; 0; 0; 0; 0; 0];
    [2; 2; 6; 2; 4; 0; 0; 0; 0; 0];
    [2; 2; 6; 2; 3; 0; 0; 0; 0; 0];
    [2; 2; 6; 2; 2; 0; 0; 0; 0; 0];
    [2; 2; 6; 2; 1; 0; 0; 0; 0; 0];
    [2; 2; 6; 2; 0; 0; 0; 0; 0; 0];
    [2; 2; 6; 1; 0; 0; 0; 0; 0; 0];
    [2; 2; 6; 0; 0; 0; 0; 0; 0; 0];
    [2; 2; 5; 0; 0; 0; 0; 0; 0; 0];
    [2; 2; 4; 0; 0; 0; 0; 0; 0; 0];
    [2; 2; 3; 0; 0; 0; 0; 0; 0; 0];
    [2; 2; 2; 0; 0; 0; 0; 0; 0; 0];
    [2; 2; 1; 0; 0; 0; 0; 0; 0; 0];
    [2; 2; 0; 0; 0; 0; 0; 0; 0; 0];
    [2; 1; 0; 0; 0; 0; 0; 0; 0; 0];
    [2; 0; 0; 0; 0; 0; 0; 0; 0; 0];
    [1; 0; 0; 0; 0; 0; 0; 0; 0; 0];
    [0; 0; 0; 0; 0; 0; 0; 0; 0; 0]]);
  (24, [[2; 2; 6; 2; 6; 5; 1; 0; 0; 0];
    [2; 2; 6; 2; 6; 5; 0; 0; 0; 0];
    [2; 2; 6; 2; 6; 4; 0; 0; 0; 0];
    [2; 2; 6; 2; 6; 3; 0; 0; 0; 0];
    [2; 2; 6; 2; 6; 2; 0; 0; 0; 0];
    [2; 2; 6; 2; 6; 1; 0; 0; 0; 0];
    [2; 2; 6; 2; 6; 0; 0; 0; 0; 0];
    [2; 2; 6; 2; 5; 0; 0; 0; 0; 0];
    [2; 2; 6; 2; 4; 0; 0; 0; 0; 0];
    [2; 2; 6; 2; 3; 0; 0; 0; 0; 0];
    [2; 2; 6; 2; 2; 0; 0; 0; 0; 0];
    [2; 2; 6; 2; 1; 0; 0; 0; 0; 0];
    [2; 2; 6; 2; 0; 0; 0; 0; 0; 0];
    [2; 2; 6; 1; 0; 0; 0; 0; 0; 0];
    [2; 2; 6; 0; 0; 0; 0; 0; 0; 0];
    [2; 2; 5; 0; 0; 0; 0; 0; 0; 0];
    [2; 2; 4; 0; 0; 0; 0; 0; 0; 0];
    [2; 2; 3; 0; 0; 0; 0; 0; 0; 0];
    [2; 2; 2; 0; 0; 0; 0; 0; 0; 0];
    [2; 2; 1; 0; 0; 0; 0; 0; 0; 0];
    [2; 2; 0; 0; 0; 0; 0; 0; 0; 0];
    [2; 1; 0; 0; 0; 0; 0; 0; 0; 0];
    [2; 0; 0; 0; 0; 0; 0; 0; 0; 0];
    [1; 0; 0; 0; 0; 0; 0; 0; 0; 0];
    [0; 0; 0; 0; 0; 0; 0; 0; 0; 0]]);
  (25, [[2; 2; 6; 2; 6; 5; 2; 0; 0; 0];
    [2; 2; 6; 2; 6; 5; 1; 0; 0; 0];
    [2; 2; 6; 2; 6; 5; 0; 0; 0; 0];
    [2; 2; 6; 2; 6; 4; 0; 0; 0; 0];
    [2; 2; 6; 2; 6; 3; 0; 0; 0; 0];
    [2; 2; 6; 2; 6; 2; 0; 0; 0; 0];
    [2; 2; 6; 2; 6; 1; 0; 0; 0; 0];
    [2; 2; 6; 2; 6; 0; 0; 0; 0; 0];
    [2; 2; 6; 2; 5; 0; 0; 0; 0; 0];
    [2; 2; 6; 2; 4; 0; 0; 0; 0; 0];
    [2; 2; 6; 2; 3; 0; 0; 0; 0; 0];
    [2; 2; 6; 2; 2; 0; 0; 0; 0; 0];
    [2; 2; 6; 2; 1; 0; 0; 0; 0; 0];
    [2; 2; 6; 2; 0; 0; 0; 0; 0; 0];
    [2; 2; 6; 1; 0; 0; 0; 0; 0; 0];
    [2; 2; 6; 0; 0; 0; 0; 0; 0; 0];
    [2; 2; 5; 0; 0; 0; 0; 0; 0; 0];
    [2; 2; 4; 0; 0; 0; 0; 0; 0; 0];
    [2; 2; 3; 0; 0; 0; 0; 0; 0; 0];
    [2; 2; 2; 0; 0; 0; 0; 0; 0; 0];
    [2; 2; 1; 0; 0; 0; 0; 0; 0; 0];
    [2; 2; 0; 0; 0; 0; 0; 0; 0; 0];
    [2; 1; 0; 0; 0; 0; 0; 0; 0; 0];
    [2; 0; 0; 0; 0; 0; 0; 0; 0; 0];
    [1; 0; 0; 0; 0; 0; 0; 0; 0; 0];
    [0; 0; 0; 0; 0; 0; 0; 0; 0; 0]]);
  (26, [[2; 2; 6; 2; 6; 6; 2; 0; 0; 0];
    [2; 2; 6; 2; 6; 6; 1; 0; 0; 0];
    [2; 2; 6; 2; 6; 6; 0; 0; 0; 0];
    [2; 2; 6; 2; 6; 5; 0; 0; 0; 0];
    [2; 2; 6; 2; 6; 4; 0; 0; 0; 0];
    [2; 2; 6; 2; 6; 3; 0; 0; 0; 0];
    [2; 2; 6; 2; 6; 2; 0; 0; 0; 0];
    [2; 2; 6; 2; 6; 1; 0; 0; 0; 0];
    [2; 2; 6; 2; 6; 0; 0; 0; 0; 0];
    [2; 2; 6; 2; 5; 0; 0; 0; 0; 0];
    [2; 2; 6; 2; 4; 0; 0; 0; 0; 0];
    [2; 2; 6; 2; 3; 0; 0; 0; 0; 0];
    [2; 2; 6; 2; 2; 0; 0; 0; 0; 0];
    [2; 2; 6; 2; 1; 0; 0; 0; 0; 0];
    [2; 2; 6; 2; 0; 0; 0; 0; 0; 0];
    [2; 2; 6; 1; 0; 0; 0; 0; 0; 0];
    [2; 2; 6; 0; 0; 0; 0; 0; 0; 0];
    [2; 2; 5; 0; 0; 0; 0; 0; 0; 0];
    [2; 2; 4; 0; 0; 0; 0; 0; 0; 0];
    [2; 2; 3; 0; 0; 0; 0; 0; 0; 0];
    [2; 2; 2; 0; 0; 0; 0; 0; 0; 0];
    [2; 2; 1; 0; 0; 0; 0; 0; 0; 0];
    [2; 2; 0; 0; 0; 0; 0; 0; 0; 0];
    [2; 1; 0; 0; 0; 0; 0; 0; 0; 0];
    [2; 0; 0; 0; 0; 0; 0; 0; 0; 0];
    [1; 0; 0; 0; 0; 0; 0; 0; 0; 0];
    [0; 0; 0; 0; 0; 0; 0; 0; 0; 0]]);
  (27, [[2; 2; 6; 2; 6; 7; 2; 0; 0; 0];
    [2; 2; 6; 2; 6; 7; 1; 0; 0; 0];
    [2; 2; 6; 2; 6; 7; 0; 0; 0; 0];
    [2; 2; 6; 2; 6; 6; 0; 0; 0; 0];
    [2; 2; 6; 2; 6; 5; 0; 0; 0; 0];
    [2; 2; 6; 2; 6; 4; 0; 0; 0; 0];
    [2; 2; 6; 2; 6; 3; 0; 0; 0; 0];
    [2; 2; 6; 2; 6; 2; 0; 0; 0; 0];
    [2; 2; 6; 2; 6; 1; 0; 0; 0; 0];
    [2; 2; 6; 2; 6; 0; 0; 0; 0; 0];
    [2; 2; 6; 2; 5; 0; 0; 0; 0; 0];
    [2; 2; 6; 2; 4; 0; 0; 0; 0; 0];
    [2; 2; 6; 2; 3; 0; 0; 0; 0; 0];
    [2; 2; 6; 2; 2; 0; 0; 0; 0; 0];
    [2; 2; 6; 2; 1; 0; 0; 0; 0; 0];
    [2; 2; 6; 2; 0; 0; 0; 0; 0; 0];
    [2; 2; 6; 1; 0; 0; 0; 0; 0; 0];
    [2; 2; 6; 0; 0; 0; 0; 0; 0; 0];
    [2; 2; 5; 0; 0; 0; 0; 0; 0; 0];
    [2; 2; 4; 0; 0; 0; 0; 0; 0; 0];
    [2; 2; 3; 0; 0; 0; 0; 0; 0; 0];
    [2; 2; 2; 0; 0; 0; 0; 0; 0; 0];
    [2; 2; 1; 0; 0; 0; 0; 0; 0; 0];
    [2; 2; 0; 0; 0; 0; 0; 0; 0; 0];
    [2; 1; 0; 0; 0; 0; 0; 0; 0; 0];
    [2; 0; 0; 0; 0; 0; 0; 0; 0; 0];
    [1; 0; 0; 0; 0; 0; 0; 0; 0; 0];
    [0; 0; 0; 0; 0; 0; 0; 0; 0; 0]]);
  (28, [[2; 2; 6; 2; 6; 8; 2; 0; 0; 0];
    [2; 2; 6; 2; 6; 8; 1; 0; 0; 0];
    [2; 2; 6; 2; 6; 8; 0; 0; 0; 0];
    [2; 2; 6; 2; 6; 7; 0; 0; 0; 0];
    [2; 2; 6; 2; 6; 6; 0; 0; 0; 0];
    [2; 2; 6; 2; 6; 5; 0; 0; 0; 0];
    [2; 2; 6; 2; 6; 4; 0; 0; 0; 0];
    [2; 2; 6; 2; 6; 3; 0; 0; 0; 0];
    [2; 2; 6; 2; 6; 2; 0; 0; 0; 0];
    [2; 2; 6; 2; 6; 1; 0; 0; 0; 0];
    [2; 2; 6; 2; 6; 0; 0; 0; 0; 0];
    [2; 2; 6; 2; 5; 0; 0; 0; 0; 0];
    [2; 2; 6; 2; 4; 0; 0; 0; 0; 0];
    [2; 2; 6; 2; 3; 0; 0; 0; 0; 0];
    [2; 2; 6; 2; 2; 0; 0; 0; 0; 0];
    [2; 2; 6; 2; 1; 0; 0; 0; 0; 0];
    [2; 2; 6; 2; 0; 0; 0; 0; 0; 0];
    [2; 2; 6; 1; 0; 0; 0; 0; 0; 0];
    [2; 2; 6; 0; 0; 0; 0; 0; 0; 0];
    [2; 2; 5; 0; 0; 0; 0; 0; 0; 0];
    [2; 2; 4; 0; 0; 0; 0; 0; 0; 0];
    [2; 2; 3; 0; 0; 0; 0; 0; 0; 0];
    [2; 2; 2; 0; 0; 0; 0; 0; 0; 0];
    [2; 2; 1; 0; 0; 0; 0; 0; 0; 0];
    [2; 2; 0; 0; 0; 0; 0; 0; 0; 0];
    [2; 1; 0; 0; 0; 0; 0; 0; 0; 0];
    [2; 0; 0; 0; 0; 0; 0; 0; 0; 0];
    [1; 0; 0; 0; 0; 0; 0; 0; 0; 0];
    [0; 0; 0; 0; 0; 0; 0; 0; 0; 0]]);
  (29, [[2; 2; 6; 2; 6; 10; 1; 0; 0; 0];
    [2; 2; 6; 2; 6; 10; 0; 0; 0; 0];
    [2; 2; 6; 2; 6; 9; 0; 0; 0; 0];
    [2; 2; 6; 2; 6; 8; 0; 0; 0; 0];
    [2; 2; 6; 2; 6; 7; 0; 0; 0; 0];
    [2; 2; 6; 2; 6; 6; 0; 0; 0; 0];
    [2; 2; 6; 2; 6; 5; 0; 0; 0; 0];
    [2; 2; 6; 2; 6; 4; 0; 0; 0; 0];
    [2; 2; 6; 2; 6; 3; 0; 0; 0; 0];
    [2; 2; 6; 2; 6; 2; 0; 0; 0; 0];
    [2; 2; 6; 2; 6; 1; 0; 0; 0; 0];
    [2; 2; 6; 2; 6; 0; 0; 0; 0; 0];
    [2; 2; 6; 2; 5; 0; 0; 0; 0; 0];
    [2; 2; 6; 2; 4; 0; 0; 0; 0; 0];
    [2; 2; 6; 2; 3; 0; 0; 0; 0; 0];
    [2; 2; 6; 2; 2; 0; 0; 0; 0; 0];
    [2; 2; 6; 2; 1; 0; 0; 0; 0; 0];
    [2; 2; 6; 2; 0; 0; 0; 0; 0; 0];
    [2; 2; 6; 1; 0; 0; 0; 0; 0; 0];
    [2; 2; 6; 0; 0; 0; 0; 0; 0; 0];
    [2; 2; 5; 0; 0; 0; 0; 0; 0; 0];
    [2; 2; 4; 0; 0; 0; 0; 0; 0; 0];
    [2; 2; 3; 0; 0; 0; 0; 0; 0; 0];
    [2; 2; 2; 0; 0; 0; 0; 0; 0; 0];
    [2; 2; 1; 0; 0; 0; 0; 0; 0; 0];
    [2; 2; 0; 0; 0; 0; 0; 0; 0; 0];
    [2; 1; 0; 0; 0; 0; 0; 0; 0; 0];
    [2; 0; 0; 0; 0; 0; 0; 0; 0; 0];
    [1; 0; 0; 0; 0; 0; 0; 0; 0; 0];
    [0; 0; 0; 0; 0; 0; 0; 0; 0; 0]]);
  (30, [[2; 2; 6; 2; 6; 10; 2; 0; 0; 0];
    [2; 2; 6; 2; 6; 10; 1; 0; 0; 0];
    [2; 2; 6; 2; 6; 10; 0; 0; 0; 0];
    [2; 2; 6; 2; 6; 9; 0; 0; 0; 0];
    [2; 2; 6; 2; 6; 8; 0; 0; 0; 0];
    [2; 2; 6; 2; 6; 7; 0; 0; 0; 0];
    [2; 2; 6; 2; 6; 6; 0; 0; 0; 0];
    [2; 2; 6; 2; 6; 5; 0; 0; 0; 0];
    [2; 2; 6; 2; 6; 4; 0; 0; 0; 0];
    [2; 2; 6; 2; 6; 3; 0; 0; 0; 0];
    [2; 2; 6; 2; 6; 2; 0; 0; 0; 0];
    [2; 2; 6; 2; 6; 1; 0; 0; 0; 0];
    [2; 2; 6; 2; 6; 0; 0; 0; 0; 0];
    [2; 2; 6; 2; 5; 0; 0; 0; 0; 0];
    [2; 2; 6; 2; 4; 0; 0; 0; 0; 0];
    [2; 2; 6; 2; 3; 0; 0; 0; 0; 0];
    [2; 2; 6; 2; 2; 0; 0; 0; 0; 0];
    [2; 2; 6; 2; 1; 0; 0; 0; 0; 0];
    [2; 2; 6; 2; 0; 0; 0; 0; 0; 0];
    [2; 2; 6; 1; 0; 0; 0; 0; 0; 0];
    [2; 2; 6; 0; 0; 0; 0; 0; 0; 0];
    [2; 2; 5; 0; 0; 0; 0; 0; 0; 0];
    [2; 2; 4; 0; 0; 0; 0; 0; 0; 0];
    [2; 2; 3; 0; 0; 0; 0; 0; 0; 0];
    [2; 2; 2; 0; 0; 0; 0; 0; 0; 0];
    [2; 2; 1; 0; 0; 0; 0; 0; 0; 0];
    [2; 2; 0; 0; 0; 0; 0; 0; 0; 0];
    [2; 1; 0; 0; 0; 0; 0; 0; 0; 0];
    [2; 0; 0; 0; 0; 0; 0; 0; 0; 0];
    [1; 0; 0; 0; 0; 0; 0; 0; 0; 0];
    [0; 0; 0; 0; 0; 0; 0; 0; 0; 0]]);
  (31, [[2; 2; 6; 2; 6; 10; 2; 1; 0; 0];
    [2; 2; 6; 2; 6; 10; 2; 0; 0; 0];
    [2; 2; 6; 2; 6; 10; 1; 0; 0; 0];
    [2; 2; 6; 2; 6; 10; 0; 0; 0; 0];
    [2; 2; 6; 2; 6; 9; 0; 0; 0; 0];
    [2; 2; 6; 2; 6; 8; 0; 0; 0; 0];
    [2; 2; 6; 2; 6; 7; 0; 0; 0; 0];
    [2; 2; 6; 2; 6; 6; 0; 0; 0; 0];
    [2; 2; 6; 2; 6; 5; 0; 0; 0; 0];
    [2; 2; 6; 2; 6; 4; 0; 0; 0; 0];
    [2; 2; 6; 2; 6; 3; 0; 0; 0; 0];
    [2; 2; 6; 2; 6; 2; 0; 0; 0; 0];
    [2; 2; 6; 2; 6; 1; 0; 0; 0; 0];
    [2; 2; 6; 2; 6; 0; 0; 0; 0; 0];
    [2; 2; 6; 2; 5; 0; 0; 0; 0; 0];
    [2; 2; 6; 2; 4; 0; 0; 0; 0; 0];
    [2; 2; 6; 2; 3; 0; 0; 0; 0; 0];
    [2; 2; 6; 2; 2; 0; 0; 0; 0; 0];
    [2; 2; 6; 2; 1; 0; 0; 0; 0; 0];
    [2; 2; 6; 2; 0; 0; 0; 0; 0; 0];
    [2; 2; 6; 1; 0; 0; 0; 0; 0; 0];
    [2; 2; 6; 0; 0; 0; 0; 0; 0; 0];
    [2; 2; 5; 0; 0; 0; 0; 0; 0; 0];
    [2; 2; 4; 0; 0; 0; 0; 0; 0; 0];
    [2; 2; 3; 0; 0; 0; 0; 0; 0; 0];
    [2; 2; 2; 0; 0; 0; 0; 0; 0; 0];
    [2; 2; 1; 0; 0; 0; 0; 0; 0; 0];
    [2; 2; 0; 0; 0; 0; 0; 0; 0; 0];
    [2; 1; 0; 0; 0; 0; 0; 0; 0; 0];
    [2; 0; 0; 0; 0; 0; 0; 0; 0; 0];
    [1; 0; 0; 0; 0; 0; 0; 0; 0; 0];
    [0; 0; 0; 0; 0; 0; 0; 0; 0; 0]]);
  (32, [[2; 2; 6; 2; 6; 10; 2; 2; 0; 0];
    [2; 2; 6; 2; 6; 10; 2; 1; 0; 0];
    [2; 2; 6; 2; 6; 10; 2; 0; 0; 0];
    [2; 2; 6; 2; 6; 10; 1; 0; 0; 0];
    [2; 2; 6; 2; 6; 10; 0; 0; 0; 0];
    [2; 2; 6; 2; 6; 9; 0; 0; 0; 0];
    [2; 2; 6; 2; 6; 8; 0; 0; 0; 0];
    [2; 2; 6; 2; 6; 7; 0; 0; 0; 0];
    [2; 2; 6; 2; 6; 6; 0; 0; 0; 0];
    [2; 2; 6; 2; 6; 5; 0; 0; 0; 0];
    [2; 2; 6; 2; 6; 4; 0; 0; 0; 0];
    [2; 2; 6; 2; 6; 3; 0; 0; 0; 0];
    [2; 2; 6; 2; 6; 2; 0; 0; 0; 0];
    [2; 2; 6; 2; 6; 1; 0; 0; 0; 0];
    [2; 2; 6; 2; 6; 0; 0; 0; 0; 0];
    [2; 2; 6; 2; 5; 0; 0; 0; 0; 0];
    [2; 2; 6; 2; 4; 0; 0; 0; 0; 0];
    [2; 2; 6; 2; 3; 0; 0; 0; 0; 0];
    [2; 2; 6; 2; 2; 0; 0; 0; 0; 0];
    [2; 2; 6; 2; 1; 0; 0; 0; 0; 0];
    [2; 2; 6; 2; 0; 0; 0; 0; 0; 0];
    [2; 2; 6; 1; 0; 0; 0; 0; 0; 0];
    [2; 2; 6; 0; 0; 0; 0; 0; 0; 0];
    [2; 2; 5; 0; 0; 0; 0; 0; 0; 0];
    [2; 2; 4; 0; 0; 0; 0; 0; 0; 0];
    [2; 2; 3; 0; 0; 0; 0; 0; 0; 0];
    [2; 2; 2; 0; 0; 0; 0; 0; 0; 0];
    [2; 2; 1; 0; 0; 0; 0; 0; 0; 0];
    [2; 2; 0; 0; 0; 0; 0; 0; 0; 0];
    [2; 1; 0; 0; 0; 0; 0; 0; 0; 0];
    [2; 0; 0; 0; 0; 0; 0; 0; 0; 0];
    [1; 0; 0; 0; 0; 0; 0; 0; 0; 0];
    [0; 0; 0; 0; 0; 0; 0; 0; 0; 0]]);
  (33, [[2; 2; 6; 2; 6; 10; 2; 3; 0; 0];
    [2; 2; 6; 2; 6; 10; 2; 2; 0; 0];
    [2; 2; 6; 2; 6; 10; 2; 1; 0; 0];
    [2; 2; 6; 2; 6; 10; 2; 0; 0; 0];
    [2; 2; 6; 2; 6; 10; 1; 0; 0; 0];
    [2; 2; 6; 2; 6; 10; 0; 0; 0; 0];
    [2; 2; 6; 2; 6; 9; 0; 0; 0; 0];
    [2; 2; 6; 2; 6; 8; 0; 0; 0; 0];
    [2; 2; 6; 2; 6; 7; 0; 0; 0; 0];
    [2; 2; 6; 2; 6; 6; 0; 0; 0; 0];
    [2; 2; 6; 2; 6; 5; 0; 0; 0; 0];
    [2; 2; 6; 2; 6; 4; 0; 0; 0; 0];
    [2; 2; 6; 2; 6; 3; 0; 0; 0; 0];
    [2; 2; 6; 2; 6; 2; 0; 0; 0; 0];
    [2; 2; 6; 2; 6; 1; 0; 0; 0; 0];
    [2; 2; 6; 2; 6; 0; 0; 0; 0; 0];
    [2; 2; 6; 2; 5; 0; 0; 0; 0; 0];
    [2; 2; 6; 2; 4; 0; 0; 0; 0; 0];
    [2; 2; 6; 2; 3; 0; 0; 0; 0; 0];
    [2; 2; 6; 2; 2; 0; 0; 0; 0; 0];
    [2; 2; 6; 2; 1; 0; 0; 0; 0; 0];
    [2; 2; 6; 2; 0; 0; 0; 0; 0; 0];
    [2; 2; 6; 1; 0; 0; 0; 0; 0; 0];
    [2; 2; 6; 0; 0; 0; 0; 0; 0; 0];
    [2; 2; 5; 0; 0; 0; 0; 0; 0; 0];
    [2; 2; 4; 0; 0; 0; 0; 0; 0; 0];
    [2; 2; 3; 0; 0; 0; 0; 0; 0; 0];
    [2; 2; 2; 0; 0; 0; 0; 0; 0; 0];
    [2; 2; 1; 0; 0; 0; 0; 0; 0; 0];
    [2; 2; 0; 0; 0; 0; 0; 0; 0; 0];
    [2; 1; 0; 0; 0; 0; 0; 0; 0; 0];
    [2; 0; 0; 0; 0; 0; 0; 0; 0; 0];
    [1; 0; 0; 0; 0; 0; 0; 0; 0; 0];
    [0; 0; 0; 0; 0; 0; 0; 0; 0; 0]]);
  (34, [[2; 2; 6; 2; 6; 10; 2; 4; 0; 0];
    [2; 2; 6; 2; 6; 10; 2; 3; 0; 0];
    [2; 2; 6; 2; 6; 10; 2; 2; 0; 0];
    [2; 2; 6; 2; 6; 10; 2; 1; 0; 0];
    [2; 2; 6; 2; 6; 10; 2; 0; 0; 0];
    [2; 2; 6; 2; 6; 10; 1; 0; 0; 0];
    [2; 2; 6; 2; 6; 10; 0; 0; 0; 0];
    [2; 2; 6; 2; 6; 9; 0; 0; 0; 0];
    [2; 2; 6; 2; 6; 8; 0; 0; 0; 0];
    [2; 2; 6; 2; 6; 7; 0; 0; 0; 0];
    [2; 2; 6; 2; 6; 6; 0; 0; 0; 0];
    [2; 2; 6; 2; 6; 5; 0; 0; 0; 0];
    [2; 2; 6; 2; 6; 4; 0; 0; 0; 0];
    [2; 2; 6; 2; 6; 3; 0; 0; 0; 0];
    [2; 2; 6; 2; 6; 2; 0; 0; 0; 0];
    [2; 2; 6; 2; 6; 1; 0; 0; 0; 0];
    [2; 2; 6; 2; 6; 0; 0; 0; 0; 0];
    [2; 2; 6; 2; 5; 0; 0; 0; 0; 0];
    [2; 2; 6; 2; 4; 0; 0; 0; 0; 0];
    [2; 2; 6; 2; 3; 0; 0; 0; 0; 0];
    [2; 2; 6; 2; 2; 0; 0; 0; 0; 0];
    [2; 2; 6; 2; 1; 0; 0; 0; 0; 0];
    [2; 2; 6; 2; 0; 0; 0; 0; 0; 0];
    [2; 2; 6; 1; 0; 0; 0; 0; 0; 0];
    [2; 2; 6; 0; 0; 0; 0; 0; 0; 0];
    [2; 2; 5; 0; 0; 0; 0; 0; 0; 0];
    [2; 2; 4; 0; 0; 0; 0; 0; 0; 0];
    [2; 2; 3; 0; 0; 0; 0; 0; 0; 0];
    [2; 2; 2; 0; 0; 0; 0; 0; 0; 0];
    [2; 2; 1; 0; 0; 0; 0; 0; 0; 0];
    [2; 2; 0; 0; 0; 0; 0; 0; 0; 0];
    [2; 1; 0; 0; 0; 0; 0; 0; 0; 0];
    [2; 0; 0; 0; 0; 0; 0; 0; 0; 0];
    [1; 0; 0; 0; 0; 0; 0; 0; 0; 0];
    [0; 0; 0; 0; 0; 0; 0; 0; 0; 0]]);
  (35, [[2; 2; 6; 2; 6; 10; 2; 5; 0; 0];
    [2; 2; 6; 2; 6; 10; 2; 4; 0; 0];
    [2; 2; 6; 2; 6; 10; 2; 3; 0; 0];
    [2; 2; 6; 2; 6; 10; 2; 2; 0; 0];
    [2; 2; 6; 2; 6; 10; 2; 1; 0; 0];
    [2; 2; 6; 2; 6; 10; 2; 0; 0; 0];
    [2; 2; 6; 2; 6; 10; 1; 0; 0; 0];
    [2; 2; 6; 2; 6; 10; 0; 0; 0; 0];
    [2; 2; 6; 2; 6; 9; 0; 0; 0; 0];
    [2; 2; 6; 2; 6; 8; 0; 0; 0; 0];
    [2; 2; 6; 2; 6; 7; 0; 0; 0; 0];
    [2; 2; 6; 2; 6; 6; 0; 0; 0; 0];
    [2; 2; 6; 2; 6; 5; 0; 0; 0; 0];
    [2; 2; 6; 2; 6; 4; 0; 0; 0; 0];
    [2; 2; 6; 2; 6; 3; 0; 0; 0; 0];
    [2; 2; 6; 2; 6; 2; 0; 0; 0; 0];
    [2; 2; 6; 2; 6; 1; 0; 0; 0; 0];
    [2; 2; 6; 2; 6; 0; 0; 0; 0; 0];
    [2; 2; 6; 2; 5; 0; 0; 0; 0; 0];
    [2; 2; 6; 2; 4; 0; 0; 0; 0; 0];
    [2; 2; 6; 2; 3; 0; 0; 0; 0; 0];
    [2; 2; 6; 2; 2; 0; 0; 0; 0; 0];
    [2; 2; 6; 2; 1; 0; 0; 0; 0; 0];
    [2; 2; 6; 2; 0; 0; 0; 0; 0; 0];
    [2; 2; 6; 1; 0; 0; 0; 0; 0; 0];
    [2; 2; 6; 0; 0; 0; 0; 0; 0; 0];
    [2; 2; 5; 0; 0; 0; 0; 0; 0; 0];
    [2; 2; 4; 0; 0; 0; 0; 0; 0; 0];
    [2; 2; 3; 0; 0; 0; 0; 0; 0; 0];
    [2; 2; 2; 0; 0; 0; 0; 0; 0; 0];
    [2; 2; 1; 0; 0; 0; 0; 0; 0; 0];
    [2; 2; 0; 0; 0; 0; 0; 0; 0; 0];
    [2; 1; 0; 0; 0; 0; 0; 0; 0; 0];
    [2; 0; 0; 0; 0; 0; 0; 0; 0; 0];
    [1; 0; 0; 0; 0; 0; 0; 0; 0; 0];
    [0; 0; 0; 0; 0; 0; 0; 0; 0; 0]]);
  (36, [[2; 2; 6; 2; 6; 10; 2; 6; 0; 0];
    [2; 2; 6; 2; 6; 10; 2; 5; 0; 0];
    [2; 2; 6; 2; 6; 10; 2; 4; 0; 0];
    [2; 2; 6; 2; 6; 10; 2; 3; 0; 0];
    [2; 2; 6; 2; 6; 10; 2; 2; 0; 0];
    [2; 2; 6; 2; 6; 10; 2; 1; 0; 0];
    [2; 2; 6; 2; 6; 10; 2; 0; 0; 0];
    [2; 2; 6; 2; 6; 10; 1; 0; 0; 0];
    [2; 2; 6; 2; 6; 10; 0; 0; 0; 0];
    [2; 2; 6; 2; 6; 9; 0; 0; 0; 0];
    [2; 2; 6; 2; 6; 8; 0; 0; 0; 0];
    [2; 2; 6; 2; 6; 7; 0; 0; 0; 0];
    [2; 2; 6; 2; 6; 6; 0; 0; 0; 0];
    [2; 2; 6; 2; 6; 5; 0; 0; 0; 0];
    [2; 2; 6; 2; 6; 4; 0; 0; 0; 0];
    [2; 2; 6; 2; 6; 3; 0; 0; 0; 0];
    [2; 2; 6; 2; 6; 2; 0; 0; 0; 0];
    [2; 2; 6; 2; 6; 1; 0; 0; 0; 0];
    [2; 2; 6; 2; 6; 0; 0; 0; 0; 0];
    [2; 2; 6; 2; 5; 0; 0; 0; 0; 0];
    [2; 2; 6; 2; 4; 0; 0; 0; 0; 0];
    [2; 2; 6; 2; 3; 0; 0; 0; 0; 0];
    [2; 2; 6; 2; 2; 0; 0; 0; 0; 0];
    [2; 2; 6; 2; 1; 0; 0; 0; 0; 0];
    [2; 2; 6; 2; 0; 0; 0; 0; 0; 0];
    [2; 2; 6; 1; 0; 0; 0; 0; 0; 0];
    [2; 2; 6; 0; 0; 0; 0; 0; 0; 0];
    [2; 2; 5; 0; 0; 0; 0; 0; 0; 0];
    [2; 2; 4; 0; 0; 0; 0; 0; 0; 0];
    [2; 2; 3; 0; 0; 0; 0; 0; 0; 0];
    [2; 2; 2; 0; 0; 0; 0; 0; 0; 0];
    [2; 2; 1; 0; 0; 0; 0; 0; 0; 0];
    [2; 2; 0; 0; 0; 0; 0; 0; 0; 0];
    [2; 1; 0; 0; 0; 0; 0; 0; 0; 0];
    [2; 0; 0; 0; 0; 0; 0; 0; 0; 0];
    [1; 0; 0; 0; 0; 0; 0; 0; 0; 0];
    [0; 0; 0; 0; 0; 0; 0; 0; 0; 0]])].
(** _ionization_statistical_weights, elements.py:1468-1538 *)
Definition tab_weights : list (nat * list Q) := [
  (1, [(2#1); (1#1)]);
  (2, [(1#1); (2#1); (1#1)]);
  (3, [(2#1); (1#1); (2#1); (1#1)]);
  (4, [(1#1); (2#1); (1#1); (2#1); (1#1)]);
  (5, [(2#1); (1#1); (2#1); (1#1); (2#1); (1#1)]);
  (6, [(1#1); (2#1); (1#1); (2#1); (1#1); (2#1); (1#1)]);
  (7, [(4#1); (1#1); (2#1); (1#1); (2#1); (1#1); (2#1); (1#1)]);
  (8, [(5#1); (4#1); (1#1); (2#1); (1#1); (2#1); (1#1); (2#1); (1#1)]);
  (9, [(4#1); (5#1); (4#1); (1#1); (2#1); (1#1); (2#1); (1#1); (2#1); (1#1)]);
  (10, [(1#1); (4#1); (5#1); (4#1); (1#1); (2#1); (1#1); (2#1); (1#1); (2#1); (1#1)]);
  (11, [(2#1); (1#1); (4#1); (5#1); (4#1); (1#1); (2#1); (1#1); (2#1); (1#1); (2#1); (1#1)]);
  (12, [(1#1); (2#1); (1#1); (4#1); (5#1); (4#1); (1#1); (2#1); (1#1); (2#1); (1#1); (2#1); (1#1)]);
  (13, [(2#1); (1#1); (2#1); (1#1); (4#1); (5#1); (4#1); (1#1); (2#1); (1#1); (2#1); (1#1); (2#1); (1#1)]);
  (14, [(1#1); (2#1); (1#1); (2#1); (1#1); (4#1); (5#1); (4#1); (1#1); (2#1); (1#1); (2#1); (1#1); (2#1); (1#1)]);
  (15, [(4#1); (1#1); (2#1); (1#1); (2#1); (1#1); (4#1); (5#1); (4#1); (1#1); (2#1); (1#1); (2#1); (1#1); (2#1); (1#1)]);
  (16, [(5#1); (4#1); (1#1); (2#1); (1#1); (2#1); (1#1); (4#1); (5#1); (4#1); (1#1); (2#1); (1#1); (2#1); (1#1); (2#1); (1#1)]);
  (17, [(4#1); (5#1); (4#1); (1#1); (2#1); (1#1); (2#1); (1#1); (4#1); (5#1); (4#1); (1#1); (2#1); (1#1); (2#1); (1#1); (2#1); (1#1)]);
  (18, [(1#1); (4#1); (5#1); (4#1); (1#1); (2#1); (1#1); (2#1); (1#1); (4#1); (5#1); (4#1); (1#1); (2#1); (1#1); (2#1); (1#1); (2#1); (1#1)]);
  (19, [(2#1); (1#1); (4#1); (5#1); (4#1); (1#1); (2#1); (1#1); (2#1); (1#1); (4#1); (5#1); (4#1); (1#1); (2#1); (1#1); (2#1); (1#1); (2#1); (1#1)]);
  (20, [(1#1); (2#1); (1#1); (4#1); (5#1); (4#1); (1#1); (2#1); (1#1); (2#1); (1#1); (4#1); (5#1); (4#1); (1#1); (2#1); (1#1); (2#1); (1#1); (2#1); (1#1)]);
  (21, [(4#1); (5#1); (4#1); (1#1); (4#1); (5#1); (4#1); (1#1); (2#1); (1#1); (2#1); (1#1); (4#1); (5#1); (4#1); (1#1); (2#1); (1#1); (2#1); (1#1); (2#1); (1#1)]);
  (22, [(5#1); (6#1); (5#1); (4#1); (1#1); (4#1); (5#1); (4#1); (1#1); (2#1); (1#1); (2#1); (1#1); (4#1); (5#1); (4#1); (1#1); (2#1); (1#1); (2#1); (1#1); (2#1); (1#1)]);
  (23, [(4#1); (5#1); (4#1); (5#1); (4#1); (1#1); (4#1); (5#1); (4#1); (1#1); (2#1); (1#1); (2#1); (1#1); (4#1); (5#1); (4#1); (1#1); (2#1); (1#1); (2#1); (1#1); (2#1); (1#1)]);
  (24, [(7#1); (6#1); (1#1); (4#1); (5#1); (4#1); (1#1); (4#1); (5#1); (4#1); (1#1); (2#1); (1#1); (2#1); (1#1); (4#1); (5#1); (4#1); (1#1); (2#1); (1#1); (2#1); (1#1); (2#1); (1#1)]);
  (25, [(6#1); (7#1); (6#1); (1#1); (4#1); (5#1); (4#1); (1#1); (4#1); (5#1); (4#1); (1#1); (2#1); (1#1); (2#1); (1#1); (4#1); (5#1); (4#1); (1#1); (2#1); (1#1); (2#1); (1#1); (2#1); (1#1)]);
  (26, [(9#1); (10#1); (9#1); (6#1); (1#1); (4#1); (5#1); (4#1); (1#1); (4#1); (5#1); (4#1); (1#1); (2#1); (1#1); (2#1); (1#1); (4#1); (5#1); (4#1); (1#1); (2#1); (1#1); (2#1); (1#1); (2#1); (1#1)]);
  (27, [(10#1); (11#1); (10#1); (9#1); (6#1); (1#1); (4#1); (5#1); (4#1); (1#1); (4#1); (5#1); (4#1); (1#1); (2#1); (1#1); (2#1); (1#1); (4#1); (5#1); (4#1); (1#1); (2#1); (1#1); (2#1); (1#1); (2#1); (1#1)]);
  (28, [(9#1); (10#1); (9#1); (10#1); (9#1); (6#1); (1#1); (4#1); (5#1); (4#1); (1#1); (4#1); (5#1); (4#1); (1#1); (2#1); (1#1); (2#1); (1#1); (4#1); (5#1); (4#1); (1#1); (2#1); (1#1); (2#1); (1#1); (2#1); (1#1)]);
  (29, [(2#1); (1#1); (6#1); (9#1); (10#1); (9#1); (6#1); (1#1); (4#1); (5#1); (4#1); (1#1); (4#1); (5#1); (4#1); (1#1); (2#1); (1#1); (2#1); (1#1); (4#1); (5#1); (4#1); (1#1); (2#1); (1#1); (2#1); (1#1); (2#1); (1#1)]);
  (30, [(1#1); (2#1); (1#1); (6#1); (9#1); (10#1); (9#1); (6#1); (1#1); (4#1); (5#1); (4#1); (1#1); (4#1); (5#1); (4#1); (1#1); (2#1); (1#1); (2#1); (1#1); (4#1); (5#1); (4#1); (1#1); (2#1); (1#1); (2#1); (1#1); (2#1); (1#1)]);
  (31, [(2#1); (1#1); (2#1); (1#1); (6#1); (9#1); (10#1); (9#1); (6#1); (1#1); (4#1); (5#1); (4#1); (1#1); (4#1); (5#1); (4#1); (1#1); (2#1); (1#1); (2#1); (1#1); (4#1); (5#1); (4#1); (1#1); (2#1); (1#1); (2#1); (1#1); (2#1); (1#1)]);
  (32, [(1#1); (2#1); (1#1); (2#1); (1#1); (6#1); (9#1); (10#1); (9#1); (6#1); (1#1); (4#1); (5#1); (4#1); (1#1); (4#1); (5#1); (4#1); (1#1); (2#1); (1#1); (2#1); (1#1); (4#1); (5#1); (4#1); (1#1); (2#1); (1#1); (2#1); (1#1); (2#1); (1#1)]);
  (33, [(4#1); (1#1); (2#1); (1#1); (2#1); (1#1); (6#1); (9#1); (10#1); (9#1); (6#1); (1#1); (4#1); (5#1); (4#1); (1#1); (4#1); (5#1); (4#1); (1#1); (2#1); (1#1); (2#1); (1#1); (4#1); (5#1); (4#1); (1#1); (2#1); (1#1); (2#1); (1#1); (2#1); (1#1)]);
  (34, [(5#1); (4#1); (1#1); (2#1); (1#1); (2#1); (1#1); (6#1); (9#1); (10#1); (9#1); (6#1); (1#1); (4#1); (5#1); (4#1); (1#1); (4#1); (5#1); (4#1); (1#1); (2#1); (1#1); (2#1); (1#1); (4#1); (5#1); (4#1); (1#1); (2#1); (1#1); (2#1); (1#1); (2#1); (1#1)]);
  (35, [(4#1); (5#1); (4#1); (1#1); (2#1); (1#1); (2#1); (1#1); (6#1); (9#1); (10#1); (9#1); (6#1); (1#1); (4#1); (5#1); (4#1); (1#1); (4#1); (5#1); (4#1); (1#1); (2#1); (1#1); (2#1); (1#1); (4#1); (5#1); (4#1); (1#1); (2#1); (1#1); (2#1); (1#1); (2#1); (1#1)]);
  (36, [(1#1); (4#1); (5#1); (4#1); (1#1); (2#1); (1#1); (2#1); (1#1); (6#1); (9#1); (10#1); (9#1); (6#1); (1#1); (4#1); (5#1); (4#1); (1#1); (4#1); (5#1); (4#1); (1#1); (2#1); (1#1); (2#1); (1#1); (4#1); (5#1); (4#1); (1#1); (2#1); (1#1); (2#1); (1#1); (2#1); (1#1)])].
(** ENERGY_DATA, absorption_edges_ionized_ions_data.py:7-5726: Z, then charge, then orbital energies *)
Definition tab_ion_edges : list (nat * list (nat * list (string * Q))) := [
  (1, [(0, [("1s"%string, (8499#625))])]);
  (2, [(0, [("1s"%string, (58589#2500))]);
    (1, [("1s"%string, (272089#5000))])]);
  (3, [(0, [("1s"%string, (631699#10000)); ("2s"%string, (52261#10000))]);
    (1, [("1s"%string, (74447#1000))]);
    (2, [("1s"%string, (612271#5000))])]);
  (4, [(0, [("1s"%string, (1230647#10000)); ("2s"%string, (80671#10000))]);
    (1, [("1s"%string, (54207#400)); ("2s"%string, (180159#10000))]);
    (2, [("1s"%string, (1526801#10000))]);
    (3, [("1s"%string, (1088593#5000))])]);
  (5, [(0, [("1s"%string, (125074#625)); ("2p"%string, (78499#10000)); ("2s"%string, (111959#10000))]);
    (1, [("1s"%string, (2173769#10000)); ("2s"%string, (234767#10000))]);
    (2, [("1s"%string, (1175903#5000)); ("2s"%string, (377193#10000))]);
    (3, [("1s"%string, (2581393#10000))]);
    (4, [("1s"%string, (3402257#10000))])]);
  (6, [(0, [("1s"%string, (2952299#10000)); ("2p"%string, (105897#10000)); ("2s"%string, (144199#10000))]);
    (1, [("1s"%string, (3147981#10000)); ("2p"%string, (239733#10000)); ("2s"%string, (144031#5000))]);
    (2, [("1s"%string, (1695341#5000)); ("2s"%string, (458261#10000))]);
    (3, [("1s"%string, (3621163#10000)); ("2s"%string, (40169#625))]);
    (4, [("1s"%string, (1954213#5000))]);
    (5, [("1s"%string, (1224983#2500))])]);
  (7, [(0, [("1s"%string, (2042593#5000)); ("2p"%string, (136559#10000)); ("2s"%string, (1787#100))]);
    (1, [("1s"%string, (4303929#10000)); ("2p"%string, (290253#10000)); ("2s"%string, (68689#2000))]);
    (2, [("1s"%string, (1142393#2500)); ("2p"%string, (471089#10000)); ("2s"%string, (534281#10000))]);
    (3, [("1s"%string, (4880769#10000)); ("2s"%string, (750493#10000))]);
    (4, [("1s"%string, (1290809#2500)); ("2s"%string, (244143#2500))]);
    (5, [("1s"%string, (2754039#5000))]);
    (6, [("1s"%string, (3335231#5000))])]);
  (8, [(0, [("1s"%string, (2716637#5000)); ("2p"%string, (118023#10000)); ("2s"%string, (53737#2000))]);
    (1, [("1s"%string, (2821067#5000)); ("2p"%string, (343747#10000)); ("2s"%string, (401003#10000))]);
    (2, [("1s"%string, (5930717#10000)); ("2p"%string, (544419#10000)); ("2s"%string, (612909#10000))]);
    (3, [("1s"%string, (3132491#5000)); ("2p"%string, (771601#10000)); ("2s"%string, (849633#10000))]);
    (4, [("1s"%string, (6643911#10000)); ("2s"%string, (277811#2500))]);
    (5, [("1s"%string, (6978167#10000)); ("2s"%string, (1378789#10000))]);
    (6, [("1s"%string, (3690281#5000))]);
    (7, [("1s"%string, (87141#100))])]);
  (9, [(0, [("1s"%string, (6968351#10000)); ("2p"%string, (77607#5000)); ("2s"%string, (186543#5000))]);
    (1, [("1s"%string, (7199097#10000)); ("2p"%string, (33247#1000)); ("2s"%string, (65267#1250))]);
    (2, [("1s"%string, (934311#1250)); ("2p"%string, (620529#10000)); ("2s"%string, (346777#5000))]);
    (3, [("1s"%string, (7831777#10000)); ("2p"%string, (173529#2000)); ("2s"%string, (59482#625))]);
    (4, [("1s"%string, (8233971#10000)); ("2p"%string, (570447#5000)); ("2s"%string, (1233799#10000))]);
    (5, [("1s"%string, (8680249#10000)); ("2s"%string, (770239#5000))]);
    (6, [("1s"%string, (2266547#2500)); ("2s"%string, (369879#2000))]);
    (7, [("1s"%string, (2381541#2500))]);
    (8, [("1s"%string, (1378897#1250))])]);
  (10, [(0, [("1s"%string, (4345161#5000)); ("2p"%string, (12216#625)); ("2s"%string, (30712#625))]);
    (1, [("1s"%string, (8943319#10000)); ("2p"%string, (391787#10000)); ("2s"%string, (657667#10000))]);
    (2, [("1s"%string, (4620467#5000)); ("2p"%string, (61717#1000)); ("2s"%string, (846073#10000))]);
    (3, [("1s"%string, (4790773#5000)); ("2p"%string, (60393#625)); ("2s"%string, (1055661#10000))]);
    (4, [("1s"%string, (500343#500)); ("2p"%string, (157443#1250)); ("2s"%string, (1359451#10000))]);
    (5, [("1s"%string, (10476617#10000)); ("2p"%string, (157887#1000)); ("2s"%string, (1686647#10000))]);
    (6, [("1s"%string, (10989989#10000)); ("2s"%string, (2038211#10000))]);
    (7, [("1s"%string, (11427553#10000)); ("2s"%string, (1194229#5000))]);
    (8, [("1s"%string, (2389033#2000))]);
    (9, [("1s"%string, (13621997#10000))])]);
  (11, [(0, [("1s"%string, (10780023#10000)); ("2p"%string, (14487#400)); ("2s"%string, (44728#625)); ("3s"%string, (3118#625))]);
    (1, [("1s"%string, (10875133#10000)); ("2p"%string, (113591#2500)); ("2s"%string, (40373#500))]);
    (2, [("1s"%string, (11195053#10000)); ("2p"%string, (87351#1250)); ("2s"%string, (126623#1250))]);
    (3, [("1s"%string, (722381#625)); ("2p"%string, (971469#10000)); ("2s"%string, (1239681#10000))]);
    (4, [("1s"%string, (11963067#10000)); ("2p"%string, (276113#2000)); ("2s"%string, (371711#2500))]);
    (5, [("1s"%string, (6228023#5000)); ("2p"%string, (430003#2500)); ("2s"%string, (918041#5000))]);
    (6, [("1s"%string, (3248269#2500)); ("2p"%string, (2085443#10000)); ("2s"%string, (110407#500))]);
    (7, [("1s"%string, (13573441#10000)); ("2s"%string, (65113#250))]);
    (8, [("1s"%string, (2812527#2000)); ("2s"%string, (374511#1250))]);
    (9, [("1s"%string, (2927591#2000))]);
    (10, [("1s"%string, (8243511#5000))])]);
  (12, [(0, [("1s"%string, (13108341#10000)); ("2p"%string, (563637#10000)); ("2s"%string, (979073#10000)); ("3s"%string, (67933#10000))]);
    (1, [("1s"%string, (3302161#2500)); ("2p"%string, (41292#625)); ("2s"%string, (66991#625)); ("3s"%string, (73727#5000))]);
    (2, [("1s"%string, (13337357#10000)); ("2p"%string, (195913#2500)); ("2s"%string, (149293#1250))]);
    (3, [("1s"%string, (548911#400)); ("2p"%string, (1075479#10000)); ("2s"%string, (719147#5000))]);
    (4, [("1s"%string, (14150227#10000)); ("2p"%string, (1394869#10000)); ("2s"%string, (1702623#10000))]);
    (5, [("1s"%string, (14619147#10000)); ("2p"%string, (1863201#10000)); ("2s"%string, (993571#5000))]);
    (6, [("1s"%string, (7589763#5000)); ("2p"%string, (140558#625)); ("2s"%string, (2381643#10000))]);
    (7, [("1s"%string, (3945917#2500)); ("2p"%string, (1330349#5000)); ("2s"%string, (2798369#10000))]);
    (8, [("1s"%string, (16430937#10000)); ("2s"%string, (3239489#10000))]);
    (9, [("1s"%string, (16971779#10000)); ("2s"%string, (3672391#10000))]);
    (10, [("1s"%string, (17604901#10000))]);
    (11, [("1s"%string, (19626643#10000))])]);
  (13, [(0, [("1s"%string, (3919497#2500)); ("2p"%string, (159377#2000)); ("2s"%string, (319501#2500)); ("3p"%string, (27083#5000)); ("3s"%string, (45619#5000))]);
    (1, [("1s"%string, (1578463#1000)); ("2p"%string, (905473#10000)); ("2s"%string, (1381059#10000)); ("3s"%string, (88669#5000))]);
    (2, [("1s"%string, (3183317#2000)); ("2p"%string, (206369#2000)); ("2s"%string, (1501453#10000)); ("3s"%string, (280681#10000))]);
    (3, [("1s"%string, (16076051#10000)); ("2p"%string, (1182539#10000)); ("2s"%string, (33027#200))]);
    (4, [("1s"%string, (8263051#5000)); ("2p"%string, (380311#2500)); ("2s"%string, (1933101#10000))]);
    (5, [("1s"%string, (17017481#10000)); ("2p"%string, (1887237#10000)); ("2s"%string, (2234797#10000))]);
    (6, [("1s"%string, (8775017#5000)); ("2p"%string, (1206997#5000)); ("2s"%string, (319551#1250))]);
    (7, [("1s"%string, (18177681#10000)); ("2p"%string, (1423163#5000)); ("2s"%string, (2996123#10000))]);
    (8, [("1s"%string, (3769757#2000)); ("2p"%string, (660937#2000)); ("2s"%string, (345743#1000))]);
    (9, [("1s"%string, (2445367#1250)); ("2s"%string, (3943247#10000))]);
    (10, [("1s"%string, (10077731#5000)); ("2s"%string, (2208741#5000))]);
    (11, [("1s"%string, (20846521#10000))]);
    (12, [("1s"%string, (23041403#10000))])]);
  (14, [(0, [("1s"%string, (9239977#5000)); ("2p"%string, (1067843#10000)); ("2s"%string, (803921#5000)); ("3p"%string, (74479#10000)); ("3s"%string, (115101#10000))]);
    (1, [("1s"%string, (4649593#2500)); ("2p"%string, (14706#125)); ("2s"%string, (430387#2500)); ("3p"%string, (78251#5000)); ("3s"%string, (52761#2500))]);
    (2, [("1s"%string, (4685173#2500)); ("2p"%string, (660123#5000)); ("2s"%string, (1856767#10000)); ("3s"%string, (322017#10000))]);
    (3, [("1s"%string, (9450963#5000)); ("2p"%string, (368351#2500)); ("2s"%string, (40043#200)); ("3s"%string, (447007#10000))]);
    (4, [("1s"%string, (1193191#625)); ("2p"%string, (103158#625)); ("2s"%string, (544513#2500))]);
    (5, [("1s"%string, (19604991#10000)); ("2p"%string, (1017889#5000)); ("2s"%string, (2497137#10000))]);
    (6, [("1s"%string, (10079979#5000)); ("2p"%string, (489697#2000)); ("2s"%string, (1418041#5000))]);
    (7, [("1s"%string, (20755979#10000)); ("2p"%string, (758209#2500)); ("2s"%string, (638947#2000))]);
    (8, [("1s"%string, (21450813#10000)); ("2p"%string, (878043#2500)); ("2s"%string, (3679617#10000))]);
    (9, [("1s"%string, (4437763#2000)); ("2p"%string, (4017509#10000)); ("2s"%string, (1046343#2500))]);
    (10, [("1s"%string, (22969851#10000)); ("2s"%string, (2357959#5000))]);
    (11, [("1s"%string, (4722823#2000)); ("2s"%string, (5231553#10000))]);
    (12, [("1s"%string, (24363207#10000))]);
    (13, [("1s"%string, (3341473#1250))])]);
  (15, [(0, [("1s"%string, (21514153#10000)); ("2p"%string, (1368679#10000)); ("2s"%string, (1967977#10000)); ("3p"%string, (19399#2000)); ("3s"%string, (138587#10000))]);
    (1, [("1s"%string, (5411437#2500)); ("2p"%string, (745223#5000)); ("2s"%string, (523583#2500)); ("3p"%string, (95097#5000)); ("3s"%string, (49263#2000))]);
    (2, [("1s"%string, (4359799#2000)); ("2p"%string, (1629559#10000)); ("2s"%string, (1119651#5000)); ("3p"%string, (29409#1000)); ("3s"%string, (366207#10000))]);
    (3, [("1s"%string, (10987399#5000)); ("2p"%string, (361151#2000)); ("2s"%string, (150254#625)); ("3s"%string, (499821#10000))]);
    (4, [("1s"%string, (2216419#1000)); ("2p"%string, (1984467#10000)); ("2s"%string, (2573209#10000)); ("3s"%string, (8067#125))]);
    (5, [("1s"%string, (4476463#2000)); ("2p"%string, (2187269#10000)); ("2s"%string, (110973#400))]);
    (6, [("1s"%string, (22959793#10000)); ("2p"%string, (2619#10)); ("2s"%string, (125223#400))]);
    (7, [("1s"%string, (2357813#1000)); ("2p"%string, (384823#1250)); ("2s"%string, (1753323#5000))]);
    (8, [("1s"%string, (24237461#10000)); ("2p"%string, (1859803#5000)); ("2s"%string, (48777#125))]);
    (9, [("1s"%string, (24999501#10000)); ("2p"%string, (2123291#5000)); ("2s"%string, (4432337#10000))]);
    (10, [("1s"%string, (6451071#2500)); ("2p"%string, (479929#1000)); ("2s"%string, (4982367#10000))]);
    (11, [("1s"%string, (106609#40)); ("2s"%string, (694709#1250))]);
    (12, [("1s"%string, (5469663#2000)); ("2s"%string, (1222951#2000))]);
    (13, [("1s"%string, (28155577#10000))]);
    (14, [("1s"%string, (1227937#400))])]);
  (16, [(0, [("1s"%string, (24793041#10000)); ("2p"%string, (1699539#10000)); ("2s"%string, (1184791#5000)); ("3p"%string, (44953#5000)); ("3s"%string, (196497#10000))]);
    (1, [("1s"%string, (24926063#10000)); ("2p"%string, (458561#2500)); ("2s"%string, (1248997#5000)); ("3p"%string, (56437#2500)); ("3s"%string, (140663#5000))]);
    (2, [("1s"%string, (1003671#400)); ("2p"%string, (496533#2500)); ("2s"%string, (165933#625)); ("3p"%string, (68063#2000)); ("3s"%string, (82501#2000))]);
    (3, [("1s"%string, (505563#200)); ("2p"%string, (538473#2500)); ("2s"%string, (1414537#5000)); ("3p"%string, (46491#1000)); ("3s"%string, (277327#5000))]);
    (4, [("1s"%string, (6371593#2500)); ("2p"%string, (590243#2500)); ("2s"%string, (151101#500)); ("3s"%string, (709769#10000))]);
    (5, [("1s"%string, (25703281#10000)); ("2p"%string, (2564543#10000)); ("2s"%string, (401777#1250)); ("3s"%string, (437639#5000))]);
    (6, [("1s"%string, (648751#250)); ("2p"%string, (111701#400)); ("2s"%string, (1720033#5000))]);
    (7, [("1s"%string, (26590791#10000)); ("2p"%string, (1635439#5000)); ("2s"%string, (3833327#10000))]);
    (8, [("1s"%string, (27272231#10000)); ("2p"%string, (1888757#5000)); ("2s"%string, (849283#2000))]);
    (9, [("1s"%string, (13997449#5000)); ("2p"%string, (2237101#5000)); ("2s"%string, (584851#1250))]);
    (10, [("1s"%string, (28824197#10000)); ("2p"%string, (5049637#10000)); ("2s"%string, (5254419#10000))]);
    (11, [("1s"%string, (5939133#2000)); ("2p"%string, (1130031#2000)); ("2s"%string, (292427#500))]);
    (12, [("1s"%string, (30610637#10000)); ("2s"%string, (3234333#5000))]);
    (13, [("1s"%string, (15679287#5000)); ("2s"%string, (1766813#2500))]);
    (14, [("1s"%string, (8056039#2500))]);
    (15, [("1s"%string, (8735473#2500))])]);
  (17, [(0, [("1s"%string, (2830623#1000)); ("2p"%string, (2068669#10000)); ("2s"%string, (2802677#10000)); ("3p"%string, (23303#2000)); ("3s"%string, (130411#5000))]);
    (1, [("1s"%string, (28451599#10000)); ("2p"%string, (2205659#10000)); ("2s"%string, (588613#2000)); ("3p"%string, (111941#5000)); ("3s"%string, (177577#5000))]);
    (2, [("1s"%string, (28618213#10000)); ("2p"%string, (1186169#5000)); ("2s"%string, (3101821#10000)); ("3p"%string, (388211#10000)); ("3s"%string, (458629#10000))]);
    (3, [("1s"%string, (2881681#1000)); ("2p"%string, (2553009#10000)); ("2s"%string, (16439#50)); ("3p"%string, (261659#5000)); ("3s"%string, (611933#10000))]);
    (4, [("1s"%string, (14517709#5000)); ("2p"%string, (2748441#10000)); ("2s"%string, (697989#2000)); ("3p"%string, (167009#2500)); ("3s"%string, (77541#1000))]);
    (5, [("1s"%string, (14637707#5000)); ("2p"%string, (2985341#10000)); ("2s"%string, (927563#2500)); ("3s"%string, (951381#10000))]);
    (6, [("1s"%string, (14759731#5000)); ("2p"%string, (160667#500)); ("2s"%string, (3925049#10000)); ("3s"%string, (568237#5000))]);
    (7, [("1s"%string, (29794561#10000)); ("2p"%string, (3466263#10000)); ("2s"%string, (4175313#10000))]);
    (8, [("1s"%string, (7624583#2500)); ("2p"%string, (3991187#10000)); ("2s"%string, (921101#2000))]);
    (9, [("1s"%string, (31242961#10000)); ("2p"%string, (36363#80)); ("2s"%string, (631957#1250))]);
    (10, [("1s"%string, (32028921#10000)); ("2p"%string, (2648283#5000)); ("2s"%string, (2762439#5000))]);
    (11, [("1s"%string, (32925567#10000)); ("2p"%string, (5921417#10000)); ("2s"%string, (1536523#2500))]);
    (12, [("1s"%string, (4232957#1250)); ("2p"%string, (1642579#2500)); ("2s"%string, (1696031#2500))]);
    (13, [("1s"%string, (8711421#2500)); ("2s"%string, (74491#100))]);
    (14, [("1s"%string, (17822791#5000)); ("2s"%string, (8089257#10000))]);
    (15, [("1s"%string, (18284823#5000))]);
    (16, [("1s"%string, (39462933#10000))])]);
  (18, [(0, [("1s"%string, (4006837#1250)); ("2p"%string, (495761#2000)); ("2s"%string, (3267881#10000)); ("3p"%string, (72627#5000)); ("3s"%string, (165897#5000))]);
    (1, [("1s"%string, (16106153#5000)); ("2p"%string, (523499#2000)); ("2s"%string, (17101#50)); ("3p"%string, (32871#1250)); ("3s"%string, (217691#5000))]);
    (2, [("1s"%string, (32390939#10000)); ("2p"%string, (2784507#10000)); ("2s"%string, (3590703#10000)); ("3p"%string, (196077#5000)); ("3s"%string, (274047#5000))]);
    (3, [("1s"%string, (32589849#10000)); ("2p"%string, (596283#2000)); ("2s"%string, (3778139#10000)); ("3p"%string, (36452#625)); ("3s"%string, (83647#1250))]);
    (4, [("1s"%string, (8205139#2500)); ("2p"%string, (3190119#10000)); ("2s"%string, (3992091#10000)); ("3p"%string, (73843#1000)); ("3s"%string, (210959#2500))]);
    (5, [("1s"%string, (16535409#5000)); ("2p"%string, (3412601#10000)); ("2s"%string, (4221471#10000)); ("3p"%string, (18059#200)); ("3s"%string, (1028013#10000))]);
    (6, [("1s"%string, (33342179#10000)); ("2p"%string, (1839277#5000)); ("2s"%string, (893719#2000)); ("3s"%string, (122439#1000))]);
    (7, [("1s"%string, (33613109#10000)); ("2p"%string, (245668#625)); ("2s"%string, (294104#625)); ("3s"%string, (1428811#10000))]);
    (8, [("1s"%string, (33916481#10000)); ("2p"%string, (4208313#10000)); ("2s"%string, (1245023#2500))]);
    (9, [("1s"%string, (55493#16)); ("2p"%string, (2390017#5000)); ("2s"%string, (5447203#10000))]);
    (10, [("1s"%string, (35490753#10000)); ("2p"%string, (5382181#10000)); ("2s"%string, (2967229#5000))]);
    (11, [("1s"%string, (36340099#10000)); ("2p"%string, (30933#50)); ("2s"%string, (1288107#2000))]);
    (12, [("1s"%string, (18652119#5000)); ("2p"%string, (686209#1000)); ("2s"%string, (3553791#5000))]);
    (13, [("1s"%string, (38308859#10000)); ("2p"%string, (7559933#10000)); ("2s"%string, (1947321#2500))]);
    (14, [("1s"%string, (39358031#10000)); ("2s"%string, (8499171#10000))]);
    (15, [("1s"%string, (8041997#2000)); ("2s"%string, (367239#400))]);
    (16, [("1s"%string, (2574544#625))]);
    (17, [("1s"%string, (177049#40))])]);
  (19, [(0, [("1s"%string, (7227451#2000)); ("2p"%string, (750369#2500)); ("2s"%string, (1929483#5000)); ("3p"%string, (235393#10000)); ("3s"%string, (453469#10000)); ("4s"%string, (20849#5000))]);
    (1, [("1s"%string, (2263063#625)); ("2p"%string, (3072331#10000)); ("2s"%string, (3929851#10000)); ("3p"%string, (7603#250)); ("3s"%string, (261141#5000))]);
    (2, [("1s"%string, (4549957#1250)); ("2p"%string, (3239003#10000)); ("2s"%string, (1028013#2500)); ("3p"%string, (221733#5000)); ("3s"%string, (644079#10000))]);
    (3, [("1s"%string, (36610359#10000)); ("2p"%string, (3434547#10000)); ("2s"%string, (4311041#10000)); ("3p"%string, (593577#10000)); ("3s"%string, (154837#2000))]);
    (4, [("1s"%string, (3684063#1000)); ("2p"%string, (3660491#10000)); ("2s"%string, (113151#250)); ("3p"%string, (81003#1000)); ("3s"%string, (11401#125))]);
    (5, [("1s"%string, (37102981#10000)); ("2p"%string, (779383#2000)); ("2s"%string, (238369#500)); ("3p"%string, (197037#2000)); ("3s"%string, (1107659#10000))]);
    (6, [("1s"%string, (2336533#625)); ("2p"%string, (414599#1000)); ("2s"%string, (5023411#10000)); ("3p"%string, (1169343#10000)); ("3s"%string, (262419#2000))]);
    (7, [("1s"%string, (37687011#10000)); ("2p"%string, (4440397#10000)); ("2s"%string, (5296991#10000)); ("3s"%string, (191079#1250))]);
    (8, [("1s"%string, (37984617#10000)); ("2p"%string, (4716451#10000)); ("2s"%string, (1389039#2500)); ("3s"%string, (1752157#10000))]);
    (9, [("1s"%string, (38316251#10000)); ("2p"%string, (1003749#2000)); ("2s"%string, (5854617#10000))]);
    (10, [("1s"%string, (7829097#2000)); ("2p"%string, (5637239#10000)); ("2s"%string, (3179263#5000))]);
    (11, [("1s"%string, (8003251#2000)); ("2p"%string, (3144037#5000)); ("2s"%string, (6883107#10000))]);
    (12, [("1s"%string, (40928989#10000)); ("2p"%string, (1786059#2500)); ("2s"%string, (928247#1250))]);
    (13, [("1s"%string, (5245101#1250)); ("2p"%string, (787181#1000)); ("2s"%string, (1627823#2000))]);
    (14, [("1s"%string, (68851#16)); ("2p"%string, (8619199#10000)); ("2s"%string, (8864209#10000))]);
    (15, [("1s"%string, (44148293#10000)); ("2s"%string, (9619081#10000))]);
    (16, [("1s"%string, (45052401#10000)); ("2s"%string, (5171303#5000))]);
    (17, [("1s"%string, (46093963#10000))]);
    (18, [("1s"%string, (3083782#625))])]);
  (20, [(0, [("1s"%string, (40473947#10000)); ("2p"%string, (3569131#10000)); ("2s"%string, (4498219#10000)); ("3p"%string, (20966#625)); ("3s"%string, (293537#5000)); ("4s"%string, (51303#10000))]);
    (1, [("1s"%string, (20275839#5000)); ("2p"%string, (1823169#5000)); ("2s"%string, (4574323#10000)); ("3p"%string, (40879#1000)); ("3s"%string, (82293#1250)); ("4s"%string, (57333#5000))]);
    (2, [("1s"%string, (20322639#5000)); ("2p"%string, (3738333#10000)); ("2s"%string, (1166563#2500)); ("3p"%string, (496819#10000)); ("3s"%string, (7467#100))]);
    (3, [("1s"%string, (20433879#5000)); ("2p"%string, (196581#500)); ("2s"%string, (243841#500)); ("3p"%string, (164209#2500)); ("3s"%string, (442857#5000))]);
    (4, [("1s"%string, (8221943#2000)); ("2p"%string, (2077427#5000)); ("2s"%string, (318959#625)); ("3p"%string, (413649#5000)); ("3s"%string, (516357#5000))]);
    (5, [("1s"%string, (20685429#5000)); ("2p"%string, (4409067#10000)); ("2s"%string, (2672589#5000)); ("3p"%string, (1068197#10000)); ("3s"%string, (47481#400))]);
    (6, [("1s"%string, (41664547#10000)); ("2p"%string, (4673043#10000)); ("2s"%string, (1403363#2500)); ("3p"%string, (1263323#10000)); ("3s"%string, (1403201#10000))]);
    (7, [("1s"%string, (20988541#5000)); ("2p"%string, (2474193#5000)); ("2s"%string, (5895739#10000)); ("3p"%string, (1467053#10000)); ("3s"%string, (20344#125))]);
    (8, [("1s"%string, (21155251#5000)); ("2p"%string, (5270733#10000)); ("2s"%string, (619551#1000)); ("3s"%string, (1864031#10000))]);
    (9, [("1s"%string, (42634707#10000)); ("2p"%string, (1114117#2000)); ("2s"%string, (51813#80)); ("3s"%string, (84263#400))]);
    (10, [("1s"%string, (21497201#5000)); ("2p"%string, (2948681#5000)); ("2s"%string, (6799037#10000))]);
    (11, [("1s"%string, (43886289#10000)); ("2p"%string, (1312579#2000)); ("2s"%string, (1467959#2000))]);
    (12, [("1s"%string, (44820251#10000)); ("2p"%string, (7263137#10000)); ("2s"%string, (3950869#5000))]);
    (13, [("1s"%string, (11449107#2500)); ("2p"%string, (4084669#5000)); ("2s"%string, (8481447#10000))]);
    (14, [("1s"%string, (46896173#10000)); ("2p"%string, (223771#250)); ("2s"%string, (9241043#10000))]);
    (15, [("1s"%string, (24016773#5000)); ("2p"%string, (9748339#10000)); ("2s"%string, (5004573#5000))]);
    (16, [("1s"%string, (49217319#10000)); ("2s"%string, (10809081#10000))]);
    (17, [("1s"%string, (3135856#625)); ("2s"%string, (723401#625))]);
    (18, [("1s"%string, (25637151#5000))]);
    (19, [("1s"%string, (1093973#200))])]);
  (21, [(0, [("1s"%string, (2812249#625)); ("2p"%string, (1022211#2500)); ("2s"%string, (5099349#10000)); ("3d"%string, (14137#2000)); ("3p"%string, (45279#1250)); ("3s"%string, (658621#10000)); ("4s"%string, (53253#10000))]);
    (1, [("1s"%string, (45076921#10000)); ("2p"%string, (833959#2000)); ("2s"%string, (5178447#10000)); ("3d"%string, (148839#10000)); ("3p"%string, (439159#10000)); ("3s"%string, (366599#5000)); ("4s"%string, (1538#125))]);
    (2, [("1s"%string, (22586693#5000)); ("2p"%string, (2131803#5000)); ("2s"%string, (1318217#2500)); ("3d"%string, (47201#2000)); ("3p"%string, (530093#10000)); ("3s"%string, (164947#2000))]);
    (3, [("1s"%string, (45363019#10000)); ("2p"%string, (4475453#10000)); ("2s"%string, (342241#625)); ("3p"%string, (90277#1250)); ("3s"%string, (502049#5000))]);
    (4, [("1s"%string, (11404159#2500)); ("2p"%string, (4694617#10000)); ("2s"%string, (571389#1000)); ("3p"%string, (225613#2500)); ("3s"%string, (1159861#10000))]);
    (5, [("1s"%string, (45889259#10000)); ("2p"%string, (2472429#5000)); ("2s"%string, (2983603#5000)); ("3p"%string, (1092889#10000)); ("3s"%string, (661629#5000))]);
    (6, [("1s"%string, (11545231#2500)); ("2p"%string, (5226801#10000)); ("2s"%string, (1558851#2500)); ("3p"%string, (271491#2000)); ("3s"%string, (149377#1000))]);
    (7, [("1s"%string, (46505739#10000)); ("2p"%string, (1379569#2500)); ("2s"%string, (6530253#10000)); ("3p"%string, (31453#200)); ("3s"%string, (173027#1000))]);
    (8, [("1s"%string, (9369811#2000)); ("2p"%string, (363726#625)); ("2s"%string, (6838493#10000)); ("3p"%string, (1795987#10000)); ("3s"%string, (1974231#10000))]);
    (9, [("1s"%string, (23606641#5000)); ("2p"%string, (3084729#5000)); ("2s"%string, (7164257#10000)); ("3s"%string, (2230527#10000))]);
    (10, [("1s"%string, (47564049#10000)); ("2p"%string, (6493037#10000)); ("2s"%string, (1866809#2500)); ("3s"%string, (498403#2000))]);
    (11, [("1s"%string, (23975901#5000)); ("2p"%string, (3422151#5000)); ("2s"%string, (7813507#10000))]);
    (12, [("1s"%string, (48906261#10000)); ("2p"%string, (472309#625)); ("2s"%string, (1048881#1250))]);
    (13, [("1s"%string, (24951711#5000)); ("2p"%string, (415369#500)); ("2s"%string, (1798119#2000))]);
    (14, [("1s"%string, (25471623#5000)); ("2p"%string, (9261897#10000)); ("2s"%string, (2401827#2500))]);
    (15, [("1s"%string, (1302779#250)); ("2p"%string, (50497#50)); ("2s"%string, (5206831#5000))]);
    (16, [("1s"%string, (26657351#5000)); ("2p"%string, (10947587#10000)); ("2s"%string, (11224343#10000))]);
    (17, [("1s"%string, (54565957#10000)); ("2s"%string, (12069431#10000))]);
    (18, [("1s"%string, (2222989#400)); ("2s"%string, (6438337#5000))]);
    (19, [("1s"%string, (56734583#10000))]);
    (20, [("1s"%string, (30168789#5000))])]);
  (22, [(0, [("1s"%string, (49755301#10000)); ("2p"%string, (2323521#5000)); ("2s"%string, (1432023#2500)); ("3d"%string, (90039#10000)); ("3p"%string, (25124#625)); ("3s"%string, (727653#10000)); ("4s"%string, (6873#1250))]);
    (1, [("1s"%string, (24919593#5000)); ("2p"%string, (4730207#10000)); ("2s"%string, (2905023#5000)); ("3d"%string, (4291#250)); ("3p"%string, (120459#2500)); ("3s"%string, (161051#2000)); ("4s"%string, (65277#5000))]);
    (2, [("1s"%string, (49938887#10000)); ("2p"%string, (60346#125)); ("2s"%string, (590739#1000)); ("3d"%string, (65691#2500)); ("3p"%string, (144193#2500)); ("3s"%string, (900407#10000))]);
    (3, [("1s"%string, (50136357#10000)); ("2p"%string, (2515619#5000)); ("2s"%string, (3058869#5000)); ("3d"%string, (420997#10000)); ("3p"%string, (757377#10000)); ("3s"%string, (108727#1000))]);
    (4, [("1s"%string, (25181109#5000)); ("2p"%string, (1320707#2500)); ("2s"%string, (6357951#10000)); ("3p"%string, (979751#10000)); ("3s"%string, (646949#5000))]);
    (5, [("1s"%string, (25323207#5000)); ("2p"%string, (690911#1250)); ("2s"%string, (6622757#10000)); ("3p"%string, (14747#125)); ("3s"%string, (1466001#10000))]);
    (6, [("1s"%string, (25474697#5000)); ("2p"%string, (1160831#2000)); ("2s"%string, (1725597#2500)); ("3p"%string, (347519#2500)); ("3s"%string, (164559#1000))]);
    (7, [("1s"%string, (51271319#10000)); ("2p"%string, (764173#1250)); ("2s"%string, (449786#625)); ("3p"%string, (335511#2000)); ("3s"%string, (183201#1000))]);
    (8, [("1s"%string, (12906781#2500)); ("2p"%string, (6432469#10000)); ("2s"%string, (3758907#5000)); ("3p"%string, (1913057#10000)); ("3s"%string, (261097#1250))]);
    (9, [("1s"%string, (13000273#2500)); ("2p"%string, (168989#250)); ("2s"%string, (1962941#2500)); ("3p"%string, (215609#1000)); ("3s"%string, (588043#2500))]);
    (10, [("1s"%string, (52396047#10000)); ("2p"%string, (7136549#10000)); ("2s"%string, (8203401#10000)); ("3s"%string, (2628177#10000))]);
    (11, [("1s"%string, (211093#40)); ("2p"%string, (935469#1250)); ("2s"%string, (4264061#5000)); ("3s"%string, (581697#2000))]);
    (12, [("1s"%string, (26594599#5000)); ("2p"%string, (98243#125)); ("2s"%string, (8898243#10000))]);
    (13, [("1s"%string, (54206077#10000)); ("2p"%string, (8619373#10000)); ("2s"%string, (9512617#10000))]);
    (14, [("1s"%string, (3454163#625)); ("2p"%string, (4710481#5000)); ("2s"%string, (1015#1))]);
    (15, [("1s"%string, (56370179#10000)); ("2p"%string, (5210921#5000)); ("2s"%string, (5401871#5000))]);
    (16, [("1s"%string, (2304261#400)); ("2p"%string, (2263551#2000)); ("2s"%string, (466291#400))]);
    (17, [("1s"%string, (58876099#10000)); ("2p"%string, (12217187#10000)); ("2s"%string, (312751#250))]);
    (18, [("1s"%string, (60194967#10000)); ("2s"%string, (1675047#1250))]);
    (19, [("1s"%string, (30628127#5000)); ("2s"%string, (113997#80))]);
    (20, [("1s"%string, (62475593#10000))]);
    (21, [("1s"%string, (66258117#10000))])]);
  (23, [(0, [("1s"%string, (54756629#10000)); ("2p"%string, (5234841#10000)); ("2s"%string, (1597291#2500)); ("3d"%string, (397#40)); ("3p"%string, (221953#5000)); ("3s"%string, (79757#1000)); ("4s"%string, (56547#10000))]);
    (1, [("1s"%string, (10968661#2000)); ("2p"%string, (212839#400)); ("2s"%string, (6473871#10000)); ("3d"%string, (184023#10000)); ("3p"%string, (526817#10000)); ("3s"%string, (878071#10000)); ("4s"%string, (137797#10000))]);
    (2, [("1s"%string, (2747313#500)); ("2p"%string, (5421327#10000)); ("2s"%string, (6574167#10000)); ("3d"%string, (278817#10000)); ("3p"%string, (78183#1250)); ("3s"%string, (976737#10000))]);
    (3, [("1s"%string, (55149513#10000)); ("2p"%string, (2815597#5000)); ("2s"%string, (6789669#10000)); ("3d"%string, (113937#2500)); ("3p"%string, (202703#2500)); ("3s"%string, (1169821#10000))]);
    (4, [("1s"%string, (55383133#10000)); ("2p"%string, (733891#1250)); ("2s"%string, (439827#625)); ("3d"%string, (641257#10000)); ("3p"%string, (1018731#10000)); ("3s"%string, (1384227#10000))]);
    (5, [("1s"%string, (55643223#10000)); ("2p"%string, (769989#1250)); ("2s"%string, (7312179#10000)); ("3p"%string, (1268921#10000)); ("3s"%string, (201967#1250))]);
    (6, [("1s"%string, (13989407#2500)); ("2p"%string, (3214643#5000)); ("2s"%string, (7603269#10000)); ("3p"%string, (744247#5000)); ("3s"%string, (901969#5000))]);
    (7, [("1s"%string, (11258143#2000)); ("2p"%string, (420781#625)); ("2s"%string, (1977219#2500)); ("3p"%string, (107418#625)); ("3s"%string, (1999579#10000))]);
    (8, [("1s"%string, (708034#125)); ("2p"%string, (7068647#10000)); ("2s"%string, (8228759#10000)); ("3p"%string, (81133#400)); ("3s"%string, (88071#400))]);
    (9, [("1s"%string, (14257363#2500)); ("2p"%string, (926949#1250)); ("2s"%string, (2144057#2500)); ("3p"%string, (2284531#10000)); ("3s"%string, (2478741#10000))]);
    (10, [("1s"%string, (57433931#10000)); ("2p"%string, (194203#250)); ("2s"%string, (8935701#10000)); ("3p"%string, (2547347#10000)); ("3s"%string, (27613#100))]);
    (11, [("1s"%string, (57859551#10000)); ("2p"%string, (8171923#10000)); ("2s"%string, (582069#625)); ("3s"%string, (3056939#10000))]);
    (12, [("1s"%string, (5826321#1000)); ("2p"%string, (533921#625)); ("2s"%string, (965959#1000)); ("3s"%string, (1678063#5000))]);
    (13, [("1s"%string, (58707229#10000)); ("2p"%string, (894277#1000)); ("2s"%string, (5026717#5000))]);
    (14, [("1s"%string, (29893311#5000)); ("2p"%string, (2437543#2500)); ("2s"%string, (10704709#10000))]);
    (15, [("1s"%string, (60910659#10000)); ("2p"%string, (1060389#1000)); ("2s"%string, (11380197#10000))]);
    (16, [("1s"%string, (31039083#5000)); ("2p"%string, (11649159#10000)); ("2s"%string, (754447#625))]);
    (17, [("1s"%string, (63383193#10000)); ("2p"%string, (6303099#5000)); ("2s"%string, (12972229#10000))]);
    (18, [("1s"%string, (64718667#10000)); ("2p"%string, (3389351#2500)); ("2s"%string, (6933259#5000))]);
    (19, [("1s"%string, (66105297#10000)); ("2s"%string, (2960441#2000))]);
    (20, [("1s"%string, (13443851#2000)); ("2s"%string, (15693569#10000))]);
    (21, [("1s"%string, (13699659#2000))]);
    (22, [("1s"%string, (72461283#10000))])]);
  (24, [(0, [("1s"%string, (7491563#1250)); ("2p"%string, (1155057#2000)); ("2s"%string, (7002611#10000)); ("3d"%string, (31927#5000)); ("3p"%string, (219441#5000)); ("3s"%string, (794777#10000)); ("4s"%string, (62271#10000))]);
    (1, [("1s"%string, (60019401#10000)); ("2p"%string, (1465057#2500)); ("2s"%string, (885923#1250)); ("3d"%string, (73151#5000)); ("3p"%string, (131069#2500)); ("3s"%string, (440013#5000))]);
    (2, [("1s"%string, (60196661#10000)); ("2p"%string, (3019191#5000)); ("2s"%string, (3636989#5000)); ("3d"%string, (294069#10000)); ("3p"%string, (674453#10000)); ("3s"%string, (105429#1000))]);
    (3, [("1s"%string, (15101469#2500)); ("2p"%string, (3130673#5000)); ("2s"%string, (7494811#10000)); ("3d"%string, (477769#10000)); ("3p"%string, (867597#10000)); ("3s"%string, (1253747#10000))]);
    (4, [("1s"%string, (30322687#5000)); ("2p"%string, (3253919#5000)); ("2s"%string, (484232#625)); ("3d"%string, (341983#5000)); ("3p"%string, (1079803#10000)); ("3s"%string, (147477#1000))]);
    (5, [("1s"%string, (6091321#1000)); ("2p"%string, (1695437#2500)); ("2s"%string, (8030053#10000)); ("3d"%string, (894949#10000)); ("3p"%string, (1312737#10000)); ("3s"%string, (428571#2500))]);
    (6, [("1s"%string, (7650817#1250)); ("2p"%string, (7106293#10000)); ("2s"%string, (8338349#10000)); ("3p"%string, (1589457#10000)); ("3s"%string, (984729#5000))]);
    (7, [("1s"%string, (15387723#2500)); ("2p"%string, (462519#625)); ("2s"%string, (8655347#10000)); ("3p"%string, (1828421#10000)); ("3s"%string, (1086759#5000))]);
    (8, [("1s"%string, (61913903#10000)); ("2p"%string, (7729691#10000)); ("2s"%string, (8986697#10000)); ("3p"%string, (2078597#10000)); ("3s"%string, (477029#2000))]);
    (9, [("1s"%string, (62295867#10000)); ("2p"%string, (505779#625)); ("2s"%string, (2333011#2500)); ("3p"%string, (1204827#5000)); ("3s"%string, (1301503#5000))]);
    (10, [("1s"%string, (12542691#2000)); ("2p"%string, (4233793#5000)); ("2s"%string, (4852843#5000)); ("3p"%string, (2687023#10000)); ("3s"%string, (1450067#5000))]);
    (11, [("1s"%string, (31574191#5000)); ("2p"%string, (1769047#2000)); ("2s"%string, (630656#625)); ("3p"%string, (2969777#10000)); ("3s"%string, (800419#2500))]);
    (12, [("1s"%string, (3180233#500)); ("2p"%string, (4637801#5000)); ("2s"%string, (10493609#10000)); ("3s"%string, (3516927#10000))]);
    (13, [("1s"%string, (64034753#10000)); ("2p"%string, (604372#625)); ("2s"%string, (5430879#5000)); ("3s"%string, (3834857#10000))]);
    (14, [("1s"%string, (32253449#5000)); ("2p"%string, (5047193#5000)); ("2s"%string, (11279459#10000))]);
    (15, [("1s"%string, (65648749#10000)); ("2p"%string, (2737331#2500)); ("2s"%string, (11967573#10000))]);
    (16, [("1s"%string, (66836451#10000)); ("2p"%string, (11856173#10000)); ("2s"%string, (12681473#10000))]);
    (17, [("1s"%string, (17017033#2500)); ("2p"%string, (2588773#2000)); ("2s"%string, (1676241#1250))]);
    (18, [("1s"%string, (17360513#2500)); ("2p"%string, (13965051#10000)); ("2s"%string, (14358863#10000))]);
    (19, [("1s"%string, (70843313#10000)); ("2p"%string, (7484259#5000)); ("2s"%string, (7647029#5000))]);
    (20, [("1s"%string, (72297863#10000)); ("2s"%string, (16275211#10000))]);
    (21, [("1s"%string, (73464619#10000)); ("2s"%string, (17208799#10000))]);
    (22, [("1s"%string, (37401813#5000))]);
    (23, [("1s"%string, (9868507#1250))])]);
  (25, [(0, [("1s"%string, (32743673#5000)); ("2p"%string, (649669#1000)); ("2s"%string, (7808339#10000)); ("3d"%string, (7942#625)); ("3p"%string, (274001#5000)); ("3s"%string, (939847#10000)); ("4s"%string, (11791#2000))]);
    (1, [("1s"%string, (65579619#10000)); ("2p"%string, (329411#500)); ("2s"%string, (7898581#10000)); ("3d"%string, (218041#10000)); ("3p"%string, (159171#2500)); ("3s"%string, (205197#2000)); ("4s"%string, (9457#625))]);
    (2, [("1s"%string, (65689143#10000)); ("2p"%string, (836859#1250)); ("2s"%string, (8004999#10000)); ("3d"%string, (160103#5000)); ("3p"%string, (371187#5000)); ("3s"%string, (565861#5000))]);
    (3, [("1s"%string, (131813#20)); ("2p"%string, (691401#1000)); ("2s"%string, (8233727#10000)); ("3d"%string, (249543#5000)); ("3p"%string, (923187#10000)); ("3s"%string, (669637#5000))]);
    (4, [("1s"%string, (33076033#5000)); ("2p"%string, (3587509#5000)); ("2s"%string, (8492043#10000)); ("3d"%string, (712081#10000)); ("3p"%string, (286311#2500)); ("3s"%string, (313387#2000))]);
    (5, [("1s"%string, (33212931#5000)); ("2p"%string, (7455753#10000)); ("2s"%string, (8779897#10000)); ("3d"%string, (945621#10000)); ("3p"%string, (1381931#10000)); ("3s"%string, (72537#400))]);
    (6, [("1s"%string, (1668173#250)); ("2p"%string, (7762323#10000)); ("2s"%string, (9095679#10000)); ("3d"%string, (1181161#10000)); ("3p"%string, (819339#5000)); ("3s"%string, (415361#2000))]);
    (7, [("1s"%string, (67052859#10000)); ("2p"%string, (2030441#2500)); ("2s"%string, (9436423#10000)); ("3p"%string, (1941141#10000)); ("3s"%string, (235489#1000))]);
    (8, [("1s"%string, (3371349#500)); ("2p"%string, (2110047#2500)); ("2s"%string, (9779089#10000)); ("3p"%string, (137464#625)); ("3s"%string, (160919#625))]);
    (9, [("1s"%string, (16954947#2500)); ("2p"%string, (8795589#10000)); ("2s"%string, (2533987#2500)); ("3p"%string, (2469703#10000)); ("3s"%string, (2802249#10000))]);
    (10, [("1s"%string, (68231633#10000)); ("2p"%string, (4592391#5000)); ("2s"%string, (10506649#10000)); ("3p"%string, (705357#2500)); ("3s"%string, (1517839#5000))]);
    (11, [("1s"%string, (34340057#5000)); ("2p"%string, (191741#200)); ("2s"%string, (10906381#10000)); ("3p"%string, (1560307#5000)); ("3s"%string, (3353077#10000))]);
    (12, [("1s"%string, (1382907#200)); ("2p"%string, (9990841#10000)); ("2s"%string, (11316367#10000)); ("3p"%string, (3423409#10000)); ("3s"%string, (918333#2500))]);
    (13, [("1s"%string, (69632259#10000)); ("2p"%string, (417901#400)); ("2s"%string, (2349027#2000)); ("3s"%string, (4008113#10000))]);
    (14, [("1s"%string, (35044407#5000)); ("2p"%string, (10865467#10000)); ("2s"%string, (12134979#10000)); ("3s"%string, (4344849#10000))]);
    (15, [("1s"%string, (70589143#10000)); ("2p"%string, (11314267#10000)); ("2s"%string, (3144117#2500))]);
    (16, [("1s"%string, (71793513#10000)); ("2p"%string, (3054209#2500)); ("2s"%string, (2660301#2000))]);
    (17, [("1s"%string, (36522493#5000)); ("2p"%string, (13177773#10000)); ("2s"%string, (702707#500))]);
    (18, [("1s"%string, (18585291#2500)); ("2p"%string, (2861207#2000)); ("2s"%string, (7410259#5000))]);
    (19, [("1s"%string, (75784117#10000)); ("2p"%string, (3078931#2000)); ("2s"%string, (7908771#5000))]);
    (20, [("1s"%string, (19312773#2500)); ("2p"%string, (1028177#625)); ("2s"%string, (839649#500))]);
    (21, [("1s"%string, (19693433#2500)); ("2s"%string, (17819719#10000))]);
    (22, [("1s"%string, (79993439#10000)); ("2s"%string, (18795653#10000))]);
    (23, [("1s"%string, (40696337#5000))]);
    (24, [("1s"%string, (85719573#10000))])]);
  (26, [(0, [("1s"%string, (71228751#10000)); ("2p"%string, (7182473#10000)); ("2s"%string, (8588593#10000)); ("3d"%string, (8181#1000)); ("3p"%string, (60711#1000)); ("3s"%string, (1043907#10000)); ("4s"%string, (62993#10000))]);
    (1, [("1s"%string, (71323731#10000)); ("2p"%string, (7276521#10000)); ("2s"%string, (4340663#5000)); ("3d"%string, (43161#2500)); ("3p"%string, (87343#1250)); ("3s"%string, (1132949#10000)); ("4s"%string, (38801#2500))]);
    (2, [("1s"%string, (71436401#10000)); ("2p"%string, (295451#400)); ("2s"%string, (4395423#5000)); ("3d"%string, (280941#10000)); ("3p"%string, (201951#2500)); ("3s"%string, (155259#1250))]);
    (3, [("1s"%string, (35825273#5000)); ("2p"%string, (1902037#2500)); ("2s"%string, (4502317#5000)); ("3d"%string, (533343#10000)); ("3p"%string, (500267#5000)); ("3s"%string, (1425153#10000))]);
    (4, [("1s"%string, (71904129#10000)); ("2p"%string, (1572751#2000)); ("2s"%string, (9270731#10000)); ("3d"%string, (46222#625)); ("3p"%string, (150963#1250)); ("3s"%string, (103812#625))]);
    (5, [("1s"%string, (72184121#10000)); ("2p"%string, (8160417#10000)); ("2s"%string, (2391031#2500)); ("3d"%string, (979953#10000)); ("3p"%string, (145657#1000)); ("3s"%string, (1914407#10000))]);
    (6, [("1s"%string, (9061399#1250)); ("2p"%string, (2118513#2500)); ("2s"%string, (988557#1000)); ("3d"%string, (1239837#10000)); ("3p"%string, (1716387#10000)); ("3s"%string, (1092529#5000))]);
    (7, [("1s"%string, (36412413#5000)); ("2p"%string, (4406191#5000)); ("2s"%string, (5116939#5000)); ("3d"%string, (29987#200)); ("3p"%string, (1996137#10000)); ("3s"%string, (2471501#10000))]);
    (8, [("1s"%string, (73182987#10000)); ("2p"%string, (9206063#10000)); ("2s"%string, (662903#625)); ("3p"%string, (2323831#10000)); ("3s"%string, (138599#500))]);
    (9, [("1s"%string, (73586723#10000)); ("2p"%string, (954877#1000)); ("2s"%string, (438983#400)); ("3p"%string, (650343#2500)); ("3s"%string, (1503727#5000))]);
    (10, [("1s"%string, (2960369#400)); ("2p"%string, (993011#1000)); ("2s"%string, (11356811#10000)); ("3p"%string, (361497#1250)); ("3s"%string, (1625457#5000))]);
    (11, [("1s"%string, (4653182#625)); ("2p"%string, (1034549#1000)); ("2s"%string, (2938181#2500)); ("3p"%string, (652719#2000)); ("3s"%string, (3499881#10000))]);
    (12, [("1s"%string, (14986051#2000)); ("2p"%string, (1077479#1000)); ("2s"%string, (12178533#10000)); ("3p"%string, (3585273#10000)); ("3s"%string, (1918771#5000))]);
    (13, [("1s"%string, (75425811#10000)); ("2p"%string, (11204911#10000)); ("2s"%string, (6306789#5000)); ("3p"%string, (1954151#5000)); ("3s"%string, (2088161#5000))]);
    (14, [("1s"%string, (75943341#10000)); ("2p"%string, (1460967#1250)); ("2s"%string, (13067977#10000)); ("3s"%string, (2265313#5000))]);
    (15, [("1s"%string, (76426359#10000)); ("2p"%string, (303231#250)); ("2s"%string, (13479499#10000)); ("3s"%string, (1221537#2500))]);
    (16, [("1s"%string, (19238749#2500)); ("2p"%string, (3150617#2500)); ("2s"%string, (13944779#10000))]);
    (17, [("1s"%string, (39110857#5000)); ("2p"%string, (13552661#10000)); ("2s"%string, (1838343#1250))]);
    (18, [("1s"%string, (1988431#250)); ("2p"%string, (7284297#5000)); ("2s"%string, (30997#20))]);
    (19, [("1s"%string, (80898319#10000)); ("2p"%string, (3147161#2000)); ("2s"%string, (16303409#10000))]);
    (20, [("1s"%string, (82410337#10000)); ("2p"%string, (16895363#10000)); ("2s"%string, (3469721#2000))]);
    (21, [("1s"%string, (16788603#2000)); ("2p"%string, (9002331#5000)); ("2s"%string, (4590901#2500))]);
    (22, [("1s"%string, (10691739#1250)); ("2s"%string, (19436043#10000))]);
    (23, [("1s"%string, (86806737#10000)); ("2s"%string, (20454451#10000))]);
    (24, [("1s"%string, (44133239#5000))]);
    (25, [("1s"%string, (92776919#10000))])]);
  (27, [(0, [("1s"%string, (9651773#1250)); ("2p"%string, (7901477#10000)); ("2s"%string, (9402081#10000)); ("3d"%string, (104161#10000)); ("3p"%string, (335809#5000)); ("3s"%string, (115047#1000)); ("4s"%string, (33377#5000))]);
    (1, [("1s"%string, (38655971#5000)); ("2p"%string, (7998171#10000)); ("2s"%string, (9497447#10000)); ("3d"%string, (99051#5000)); ("3p"%string, (153271#2000)); ("3s"%string, (1242463#10000)); ("4s"%string, (158831#10000))]);
    (2, [("1s"%string, (15485557#2000)); ("2p"%string, (8111063#10000)); ("2s"%string, (4805057#5000)); ("3d"%string, (61959#2000)); ("3p"%string, (878659#10000)); ("3s"%string, (1354949#10000))]);
    (3, [("1s"%string, (9706213#1250)); ("2p"%string, (8335773#10000)); ("2s"%string, (4915883#5000)); ("3d"%string, (491443#10000)); ("3p"%string, (13421#125)); ("3s"%string, (154559#1000))]);
    (4, [("1s"%string, (3895047#500)); ("2p"%string, (8595611#10000)); ("2s"%string, (10082067#10000)); ("3d"%string, (781807#10000)); ("3p"%string, (1294327#10000)); ("3s"%string, (877851#5000))]);
    (5, [("1s"%string, (78188869#10000)); ("2p"%string, (8885599#10000)); ("2s"%string, (10383213#10000)); ("3d"%string, (506843#5000)); ("3p"%string, (1526179#10000)); ("3s"%string, (2017457#10000))]);
    (6, [("1s"%string, (78502261#10000)); ("2p"%string, (23041#25)); ("2s"%string, (10710283#10000)); ("3d"%string, (1280439#10000)); ("3p"%string, (112537#625)); ("3s"%string, (143452#625))]);
    (7, [("1s"%string, (78841947#10000)); ("2p"%string, (9562183#10000)); ("2s"%string, (11064443#10000)); ("3d"%string, (1566049#10000)); ("3p"%string, (260337#1250)); ("3s"%string, (258921#1000))]);
    (8, [("1s"%string, (39603881#5000)); ("2p"%string, (1986327#2000)); ("2s"%string, (11444639#10000)); ("3d"%string, (1849181#10000)); ("3p"%string, (238487#1000)); ("3s"%string, (2898177#10000))]);
    (9, [("1s"%string, (39798917#5000)); ("2p"%string, (10359089#10000)); ("2s"%string, (11848557#10000)); ("3p"%string, (1368709#5000)); ("3s"%string, (805177#2500))]);
    (10, [("1s"%string, (40015537#5000)); ("2p"%string, (5362973#5000)); ("2s"%string, (6120991#5000)); ("3p"%string, (3034173#10000)); ("3s"%string, (43397#125))]);
    (11, [("1s"%string, (2012081#250)); ("2p"%string, (1391649#1250)); ("2s"%string, (12649497#10000)); ("3p"%string, (1672681#5000)); ("3s"%string, (3731153#10000))]);
    (12, [("1s"%string, (80954733#10000)); ("2p"%string, (2314923#2000)); ("2s"%string, (13070551#10000)); ("3p"%string, (1868051#5000)); ("3s"%string, (3995657#10000))]);
    (13, [("1s"%string, (10183123#1250)); ("2p"%string, (6015453#5000)); ("2s"%string, (13522397#10000)); ("3p"%string, (4081129#10000)); ("3s"%string, (4353699#10000))]);
    (14, [("1s"%string, (16398151#2000)); ("2p"%string, (1248739#1000)); ("2s"%string, (6991193#5000)); ("3p"%string, (884901#2000)); ("3s"%string, (47107#100))]);
    (15, [("1s"%string, (82538959#10000)); ("2p"%string, (12996233#10000)); ("2s"%string, (14462413#10000)); ("3s"%string, (1016911#2000))]);
    (16, [("1s"%string, (41524217#5000)); ("2p"%string, (13461281#10000)); ("2s"%string, (14895629#10000)); ("3s"%string, (272943#500))]);
    (17, [("1s"%string, (16721071#2000)); ("2p"%string, (6979449#5000)); ("2s"%string, (3076937#2000))]);
    (18, [("1s"%string, (42467299#5000)); ("2p"%string, (14956901#10000)); ("2s"%string, (3236751#2000))]);
    (19, [("1s"%string, (86314313#10000)); ("2p"%string, (1001781#625)); ("2s"%string, (4253723#2500))]);
    (20, [("1s"%string, (87740799#10000)); ("2p"%string, (17233359#10000)); ("2s"%string, (17859131#10000))]);
    (21, [("1s"%string, (44660901#5000)); ("2p"%string, (9233777#5000)); ("2s"%string, (9476207#5000))]);
    (22, [("1s"%string, (22730059#2500)); ("2p"%string, (19630337#10000)); ("2s"%string, (20006273#10000))]);
    (23, [("1s"%string, (46289793#5000)); ("2s"%string, (4224911#2000))]);
    (24, [("1s"%string, (93905693#10000)); ("2s"%string, (22185567#10000))]);
    (25, [("1s"%string, (95426229#10000))]);
    (26, [("1s"%string, (20024267#2000))])]);
  (28, [(0, [("1s"%string, (41723623#5000)); ("2p"%string, (541073#625)); ("2s"%string, (10251841#10000)); ("3d"%string, (5601#500)); ("3p"%string, (748829#10000)); ("3s"%string, (63067#500)); ("4s"%string, (4393#625))]);
    (1, [("1s"%string, (41773957#5000)); ("2p"%string, (8756647#10000)); ("2s"%string, (2069993#2000)); ("3d"%string, (41821#2000)); ("3p"%string, (846637#10000)); ("3s"%string, (1356421#10000)); ("4s"%string, (40587#2500))]);
    (2, [("1s"%string, (83666937#10000)); ("2p"%string, (1774529#2000)); ("2s"%string, (523287#500)); ("3d"%string, (162039#5000)); ("3p"%string, (481137#5000)); ("3s"%string, (14721#100))]);
    (3, [("1s"%string, (41947231#5000)); ("2p"%string, (568619#625)); ("2s"%string, (10693063#10000)); ("3d"%string, (132041#2500)); ("3p"%string, (1153113#10000)); ("3s"%string, (1668929#10000))]);
    (4, [("1s"%string, (21038339#2500)); ("2p"%string, (9359853#10000)); ("2s"%string, (5475581#5000)); ("3d"%string, (184541#2500)); ("3p"%string, (687791#5000)); ("3s"%string, (1886557#10000))]);
    (5, [("1s"%string, (21109911#2500)); ("2p"%string, (1931043#2000)); ("2s"%string, (11235479#10000)); ("3d"%string, (212769#2000)); ("3p"%string, (405497#2500)); ("3s"%string, (212127#1000))]);
    (6, [("1s"%string, (42380473#5000)); ("2p"%string, (399139#400)); ("2s"%string, (2892589#2500)); ("3d"%string, (660259#5000)); ("3p"%string, (938761#5000)); ("3s"%string, (2407641#10000))]);
    (7, [("1s"%string, (85107033#10000)); ("2p"%string, (10342503#10000)); ("2s"%string, (2386047#2000)); ("3d"%string, (1613011#10000)); ("3p"%string, (3483#16)); ("3s"%string, (1354467#5000))]);
    (8, [("1s"%string, (8547889#1000)); ("2p"%string, (133997#125)); ("2s"%string, (1539551#1250)); ("3d"%string, (120243#625)); ("3p"%string, (1240259#5000)); ("3s"%string, (3025639#10000))]);
    (9, [("1s"%string, (85876601#10000)); ("2p"%string, (5559939#5000)); ("2s"%string, (3182007#2500)); ("3d"%string, (2230399#10000)); ("3p"%string, (2804717#10000)); ("3s"%string, (3356763#10000))]);
    (10, [("1s"%string, (17259677#2000)); ("2p"%string, (11580737#10000)); ("2s"%string, (3290733#2500)); ("3p"%string, (1590917#5000)); ("3s"%string, (740219#2000))]);
    (11, [("1s"%string, (10845127#1250)); ("2p"%string, (5985827#5000)); ("2s"%string, (3395383#2500)); ("3p"%string, (874443#2500)); ("3s"%string, (991911#2500))]);
    (12, [("1s"%string, (87242827#10000)); ("2p"%string, (3101193#2500)); ("2s"%string, (14014221#10000)); ("3p"%string, (1914931#5000)); ("3s"%string, (848613#2000))]);
    (13, [("1s"%string, (87744119#10000)); ("2p"%string, (2574411#2000)); ("2s"%string, (361509#250)); ("3p"%string, (423891#1000)); ("3s"%string, (4523117#10000))]);
    (14, [("1s"%string, (44142631#5000)); ("2p"%string, (13355361#10000)); ("2s"%string, (1867279#1250)); ("3p"%string, (1152051#2500)); ("3s"%string, (196063#400))]);
    (15, [("1s"%string, (88841277#10000)); ("2p"%string, (2767657#2000)); ("2s"%string, (7711557#5000)); ("3p"%string, (621513#1250)); ("3s"%string, (1055317#2000))]);
    (16, [("1s"%string, (89420163#10000)); ("2p"%string, (14373019#10000)); ("2s"%string, (15928769#10000)); ("3s"%string, (113399#200))]);
    (17, [("1s"%string, (44978101#5000)); ("2p"%string, (928853#625)); ("2s"%string, (16383667#10000)); ("3s"%string, (1515761#2500))]);
    (18, [("1s"%string, (18108291#2000)); ("2p"%string, (3076741#2000)); ("2s"%string, (16896577#10000))]);
    (19, [("1s"%string, (18386641#2000)); ("2p"%string, (8214761#5000)); ("2s"%string, (4433179#2500))]);
    (20, [("1s"%string, (18675461#2000)); ("2p"%string, (17557283#10000)); ("2s"%string, (1162727#625))]);
    (21, [("1s"%string, (94869763#10000)); ("2p"%string, (9399473#5000)); ("2s"%string, (19488229#10000))]);
    (22, [("1s"%string, (24129883#2500)); ("2p"%string, (5027903#2500)); ("2s"%string, (20629303#10000))]);
    (23, [("1s"%string, (49091931#5000)); ("2p"%string, (5332051#2500)); ("2s"%string, (2715167#1250))]);
    (24, [("1s"%string, (99911857#10000)); ("2s"%string, (2860699#1250))]);
    (25, [("1s"%string, (101291431#10000)); ("2s"%string, (599733#250))]);
    (26, [("1s"%string, (12859137#1250))]);
    (27, [("1s"%string, (13469251#1250))])]);
  (29, [(0, [("1s"%string, (44925209#5000)); ("2p"%string, (9381063#10000)); ("2s"%string, (5528093#5000)); ("3d"%string, (66319#10000)); ("3p"%string, (823107#10000)); ("3s"%string, (655929#5000)); ("4s"%string, (31709#5000))]);
    (1, [("1s"%string, (89954139#10000)); ("2p"%string, (2370649#2500)); ("2s"%string, (697346#625)); ("3d"%string, (168561#10000)); ("3p"%string, (231427#2500)); ("3s"%string, (707157#5000))]);
    (2, [("1s"%string, (9015499#1000)); ("2p"%string, (9671957#10000)); ("2s"%string, (2271627#2000)); ("3d"%string, (67589#2000)); ("3p"%string, (266291#2500)); ("3s"%string, (318761#2000))]);
    (3, [("1s"%string, (18077637#2000)); ("2p"%string, (395909#400)); ("2s"%string, (5795613#5000)); ("3d"%string, (54827#1000)); ("3p"%string, (311547#2500)); ("3s"%string, (898329#5000))]);
    (4, [("1s"%string, (90652793#10000)); ("2p"%string, (1269951#1250)); ("2s"%string, (11855099#10000)); ("3d"%string, (78273#1000)); ("3p"%string, (182987#1250)); ("3s"%string, (404131#2000))]);
    (5, [("1s"%string, (90946719#10000)); ("2p"%string, (5228223#5000)); ("2s"%string, (12147231#10000)); ("3d"%string, (203837#2000)); ("3p"%string, (85583#500)); ("3s"%string, (2262973#10000))]);
    (6, [("1s"%string, (45633483#5000)); ("2p"%string, (674119#625)); ("2s"%string, (12464083#10000)); ("3d"%string, (689261#5000)); ("3p"%string, (247801#1250)); ("3s"%string, (315123#1250))]);
    (7, [("1s"%string, (18324183#2000)); ("2p"%string, (5570913#5000)); ("2s"%string, (6415931#5000)); ("3d"%string, (414877#2500)); ("3p"%string, (1130639#5000)); ("3s"%string, (353879#1250))]);
    (8, [("1s"%string, (45999627#5000)); ("2p"%string, (11538273#10000)); ("2s"%string, (13223797#10000)); ("3d"%string, (247153#1250)); ("3p"%string, (2585009#10000)); ("3s"%string, (315517#1000))]);
    (9, [("1s"%string, (18480599#2000)); ("2p"%string, (11946569#10000)); ("2s"%string, (13641547#10000)); ("3d"%string, (2313133#10000)); ("3p"%string, (1454843#5000)); ("3s"%string, (13977#40))]);
    (10, [("1s"%string, (23208089#2500)); ("2p"%string, (1547121#1250)); ("2s"%string, (14084203#10000)); ("3d"%string, (2642829#10000)); ("3p"%string, (3255553#10000)); ("3s"%string, (153889#400))]);
    (11, [("1s"%string, (93285687#10000)); ("2p"%string, (12870939#10000)); ("2s"%string, (14549803#10000)); ("3p"%string, (3657011#10000)); ("3s"%string, (4213143#10000))]);
    (12, [("1s"%string, (9377769#1000)); ("2p"%string, (13285851#10000)); ("2s"%string, (14993477#10000)); ("3p"%string, (1996079#5000)); ("3s"%string, (2247609#5000))]);
    (13, [("1s"%string, (94289073#10000)); ("2p"%string, (549793#400)); ("2s"%string, (7725651#5000)); ("3p"%string, (2172707#5000)); ("3s"%string, (4786671#10000))]);
    (14, [("1s"%string, (23705049#2500)); ("2p"%string, (14237859#10000)); ("2s"%string, (7961259#5000)); ("3p"%string, (2385999#5000)); ("3s"%string, (5082341#10000))]);
    (15, [("1s"%string, (47696131#5000)); ("2p"%string, (14748193#10000)); ("2s"%string, (8213201#5000)); ("3p"%string, (1291657#2500)); ("3s"%string, (5481323#10000))]);
    (16, [("1s"%string, (95978531#10000)); ("2p"%string, (15257559#10000)); ("2s"%string, (8468039#5000)); ("3p"%string, (1387797#2500)); ("3s"%string, (2937019#5000))]);
    (17, [("1s"%string, (96588117#10000)); ("2p"%string, (3954533#2500)); ("2s"%string, (139739#80)); ("3s"%string, (1257387#2000))]);
    (18, [("1s"%string, (48575363#5000)); ("2p"%string, (16330363#10000)); ("2s"%string, (17943979#10000)); ("3s"%string, (6698837#10000))]);
    (19, [("1s"%string, (97764429#10000)); ("2p"%string, (16876883#10000)); ("2s"%string, (739231#400))]);
    (20, [("1s"%string, (4960937#500)); ("2p"%string, (17970561#10000)); ("2s"%string, (4838513#2500))]);
    (21, [("1s"%string, (50363681#5000)); ("2p"%string, (4788687#2500)); ("2s"%string, (10132537#5000))]);
    (22, [("1s"%string, (20457301#2000)); ("2p"%string, (20432841#10000)); ("2s"%string, (1324454#625))]);
    (23, [("1s"%string, (20800941#2000)); ("2p"%string, (1091397#500)); ("2s"%string, (22379633#10000))]);
    (24, [("1s"%string, (5286759#500)); ("2p"%string, (5774661#2500)); ("2s"%string, (4701839#2000))]);
    (25, [("1s"%string, (107532029#10000)); ("2s"%string, (12359787#5000))]);
    (26, [("1s"%string, (108965249#10000)); ("2s"%string, (2586619#1000))]);
    (27, [("1s"%string, (110608329#10000))]);
    (28, [("1s"%string, (115676299#10000))])]);
  (30, [(0, [("1s"%string, (96655429#10000)); ("2p"%string, (2569207#2500)); ("2s"%string, (6028107#5000)); ("3d"%string, (34601#2500)); ("3p"%string, (963313#10000)); ("3s"%string, (372911#2500)); ("4s"%string, (14511#2000))]);
    (1, [("1s"%string, (96763761#10000)); ("2p"%string, (10383583#10000)); ("2s"%string, (6080751#5000)); ("3d"%string, (243309#10000)); ("3p"%string, (213723#2000)); ("3s"%string, (398493#2500)); ("4s"%string, (166709#10000))]);
    (2, [("1s"%string, (9689111#1000)); ("2p"%string, (10507973#10000)); ("2s"%string, (19657#16)); ("3d"%string, (366961#10000)); ("3p"%string, (1192981#10000)); ("3s"%string, (1718437#10000))]);
    (3, [("1s"%string, (97132163#10000)); ("2p"%string, (10736151#10000)); ("2s"%string, (2505319#2000)); ("3d"%string, (567979#10000)); ("3p"%string, (339947#2500)); ("3s"%string, (385791#2000))]);
    (4, [("1s"%string, (6087657#625)); ("2p"%string, (10997823#10000)); ("2s"%string, (6398141#5000)); ("3d"%string, (404369#5000)); ("3p"%string, (1566629#10000)); ("3s"%string, (5398#25))]);
    (5, [("1s"%string, (9770221#1000)); ("2p"%string, (705879#625)); ("2s"%string, (20951#16)); ("3d"%string, (1071597#10000)); ("3p"%string, (1809013#10000)); ("3s"%string, (481613#2000))]);
    (6, [("1s"%string, (1225376#125)); ("2p"%string, (2324883#2000)); ("2s"%string, (2683821#2000)); ("3d"%string, (1333453#10000)); ("3p"%string, (208077#1000)); ("3s"%string, (534739#2000))]);
    (7, [("1s"%string, (98383461#10000)); ("2p"%string, (11987057#10000)); ("2s"%string, (13767553#10000)); ("3d"%string, (215661#1250)); ("3p"%string, (593777#2500)); ("3s"%string, (590819#2000))]);
    (8, [("1s"%string, (98769643#10000)); ("2p"%string, (1546893#1250)); ("2s"%string, (14167503#10000)); ("3d"%string, (2030193#10000)); ("3p"%string, (2676993#10000)); ("3s"%string, (205452#625))]);
    (9, [("1s"%string, (99179913#10000)); ("2p"%string, (2560699#2000)); ("2s"%string, (7295519#5000)); ("3d"%string, (2372861#10000)); ("3p"%string, (1512413#5000)); ("3s"%string, (1816913#5000))]);
    (10, [("1s"%string, (99615267#10000)); ("2p"%string, (6621201#5000)); ("2s"%string, (15039957#10000)); ("3d"%string, (341697#1250)); ("3p"%string, (210627#625)); ("3s"%string, (3994953#10000))]);
    (11, [("1s"%string, (50038067#5000)); ("2p"%string, (13702803#10000)); ("2s"%string, (15513373#10000)); ("3d"%string, (771587#2500)); ("3p"%string, (467161#1250)); ("3s"%string, (4369593#10000))]);
    (12, [("1s"%string, (10056089#1000)); ("2p"%string, (14229627#10000)); ("2s"%string, (16009413#10000)); ("3p"%string, (4162937#10000)); ("3s"%string, (4756963#10000))]);
    (13, [("1s"%string, (12635271#1250)); ("2p"%string, (14668469#10000)); ("2s"%string, (16478091#10000)); ("3p"%string, (180689#400)); ("3s"%string, (5054451#10000))]);
    (14, [("1s"%string, (20324639#2000)); ("2p"%string, (15153347#10000)); ("2s"%string, (1060064#625)); ("3p"%string, (4892027#10000)); ("3s"%string, (5362101#10000))]);
    (15, [("1s"%string, (102184163#10000)); ("2p"%string, (979499#625)); ("2s"%string, (8728649#5000)); ("3p"%string, (2667687#5000)); ("3s"%string, (2836743#5000))]);
    (16, [("1s"%string, (51393589#5000)); ("2p"%string, (8104679#5000)); ("2s"%string, (3597433#2000)); ("3p"%string, (2878261#5000)); ("3s"%string, (1218611#2000))]);
    (17, [("1s"%string, (10340367#1000)); ("2p"%string, (1674519#1000)); ("2s"%string, (4630399#2500)); ("3p"%string, (770229#1250)); ("3s"%string, (406447#625))]);
    (18, [("1s"%string, (10404403#1000)); ("2p"%string, (8665793#5000)); ("2s"%string, (19078569#10000)); ("3s"%string, (6935607#10000))]);
    (19, [("1s"%string, (20926651#2000)); ("2p"%string, (4466863#2500)); ("2s"%string, (1223557#625)); ("3s"%string, (3683173#5000))]);
    (20, [("1s"%string, (6579718#625)); ("2p"%string, (18438467#10000)); ("2s"%string, (5034407#2500))]);
    (21, [("1s"%string, (106792399#10000)); ("2p"%string, (19580029#10000)); ("2s"%string, (10524053#5000))]);
    (22, [("1s"%string, (108365703#10000)); ("2p"%string, (208207#100)); ("2s"%string, (21999573#10000))]);
    (23, [("1s"%string, (54996109#5000)); ("2p"%string, (5533829#2500)); ("2s"%string, (5742183#2500))]);
    (24, [("1s"%string, (27944609#2500)); ("2p"%string, (23616939#10000)); ("2s"%string, (6050931#2500))]);
    (25, [("1s"%string, (113575391#10000)); ("2p"%string, (4988403#2000)); ("2s"%string, (25370207#10000))]);
    (26, [("1s"%string, (28860331#2500)); ("2s"%string, (3328359#1250))]);
    (27, [("1s"%string, (116928387#10000)); ("2s"%string, (27816531#10000))]);
    (28, [("1s"%string, (118633211#10000))]);
    (29, [("1s"%string, (12388951#1000))])]);
  (31, [(0, [("1s"%string, (25938401#2500)); ("2p"%string, (5623601#5000)); ("2s"%string, (13135617#10000)); ("3d"%string, (121431#5000)); ("3p"%string, (1136699#10000)); ("3s"%string, (1708267#10000)); ("4p"%string, (55517#10000)); ("4s"%string, (101391#10000))]);
    (1, [("1s"%string, (12980699#1250)); ("2p"%string, (11338039#10000)); ("2s"%string, (132257#100)); ("3d"%string, (67179#2000)); ("3p"%string, (615039#5000)); ("3s"%string, (224757#1250)); ("4s"%string, (45549#2500))]);
    (2, [("1s"%string, (20795393#2000)); ("2p"%string, (11467283#10000)); ("2s"%string, (2670591#2000)); ("3d"%string, (115549#2500)); ("3p"%string, (678297#5000)); ("3s"%string, (960393#5000)); ("4s"%string, (294007#10000))]);
    (3, [("1s"%string, (104125843#10000)); ("2p"%string, (11612351#10000)); ("2s"%string, (6748841#5000)); ("3d"%string, (75621#1250)); ("3p"%string, (18754#125)); ("3s"%string, (412931#2000))]);
    (4, [("1s"%string, (104403923#10000)); ("2p"%string, (1484449#1250)); ("2s"%string, (1721901#1250)); ("3d"%string, (52149#625)); ("3p"%string, (845521#5000)); ("3s"%string, (1151201#5000))]);
    (5, [("1s"%string, (104709393#10000)); ("2p"%string, (1521371#1250)); ("2s"%string, (1407923#1000)); ("3d"%string, (68976#625)); ("3p"%string, (1921607#10000)); ("3s"%string, (1278853#5000))]);
    (6, [("1s"%string, (105043037#10000)); ("2p"%string, (12500133#10000)); ("2s"%string, (14410049#10000)); ("3d"%string, (348437#2500)); ("3p"%string, (2187403#10000)); ("3s"%string, (1415031#5000))]);
    (7, [("1s"%string, (105404013#10000)); ("2p"%string, (12863063#10000)); ("2s"%string, (1845801#1250)); ("3d"%string, (1680329#10000)); ("3p"%string, (2482323#10000)); ("3s"%string, (77953#250))]);
    (8, [("1s"%string, (52895041#5000)); ("2p"%string, (6629069#5000)); ("2s"%string, (7572829#5000)); ("3d"%string, (525913#2500)); ("3p"%string, (1399801#5000)); ("3s"%string, (1710093#5000))]);
    (9, [("1s"%string, (26552039#2500)); ("2p"%string, (6839103#5000)); ("2s"%string, (1947171#1250)); ("3d"%string, (2432347#10000)); ("3p"%string, (1562243#5000)); ("3s"%string, (236007#625))]);
    (10, [("1s"%string, (106650071#10000)); ("2p"%string, (282759#200)); ("2s"%string, (2004007#1250)); ("3d"%string, (349961#1250)); ("3p"%string, (3496151#10000)); ("3s"%string, (2072391#5000))]);
    (11, [("1s"%string, (107116877#10000)); ("2p"%string, (2921431#2000)); ("2s"%string, (1651187#1000)); ("3d"%string, (637021#2000)); ("3p"%string, (3861497#10000)); ("3s"%string, (56597#125))]);
    (12, [("1s"%string, (26902277#2500)); ("2p"%string, (15097291#10000)); ("2s"%string, (17015771#10000)); ("3d"%string, (1780421#5000)); ("3p"%string, (2124931#5000)); ("3s"%string, (4923877#10000))]);
    (13, [("1s"%string, (108125199#10000)); ("2p"%string, (7828411#5000)); ("2s"%string, (2192763#1250)); ("3p"%string, (4699581#10000)); ("3s"%string, (1333151#2500))]);
    (14, [("1s"%string, (108675753#10000)); ("2p"%string, (16119519#10000)); ("2s"%string, (180357#100)); ("3p"%string, (5073023#10000)); ("3s"%string, (2822757#5000))]);
    (15, [("1s"%string, (109246377#10000)); ("2p"%string, (3326059#2000)); ("2s"%string, (18543711#10000)); ("3p"%string, (5469637#10000)); ("3s"%string, (2984721#5000))]);
    (16, [("1s"%string, (6864828#625)); ("2p"%string, (429361#250)); ("2s"%string, (19065073#10000)); ("3p"%string, (1482271#2500)); ("3s"%string, (6296701#10000))]);
    (17, [("1s"%string, (5523559#500)); ("2p"%string, (3547769#2000)); ("2s"%string, (19620859#10000)); ("3p"%string, (3188967#5000)); ("3s"%string, (3368441#5000))]);
    (18, [("1s"%string, (55559007#5000)); ("2p"%string, (9150607#5000)); ("2s"%string, (20180073#10000)); ("3p"%string, (1701043#2500)); ("3s"%string, (716407#1000))]);
    (19, [("1s"%string, (279473#25)); ("2p"%string, (9456711#5000)); ("2s"%string, (10381373#5000)); ("3s"%string, (3808049#5000))]);
    (20, [("1s"%string, (112405079#10000)); ("2p"%string, (9736487#5000)); ("2s"%string, (10641423#5000)); ("3s"%string, (8065689#10000))]);
    (21, [("1s"%string, (113075943#10000)); ("2p"%string, (20068511#10000)); ("2s"%string, (1093377#500))]);
    (22, [("1s"%string, (22931101#2000)); ("2p"%string, (21258019#10000)); ("2s"%string, (22815289#10000))]);
    (23, [("1s"%string, (58146793#5000)); ("2p"%string, (902197#400)); ("2s"%string, (23807443#10000))]);
    (24, [("1s"%string, (117988187#10000)); ("2p"%string, (11953299#5000)); ("2s"%string, (1551317#625))]);
    (25, [("1s"%string, (59921007#5000)); ("2p"%string, (25479041#10000)); ("2s"%string, (5220387#2000))]);
    (26, [("1s"%string, (121705901#10000)); ("2p"%string, (1678672#625)); ("2s"%string, (3413103#1250))]);
    (27, [("1s"%string, (123641133#10000)); ("2s"%string, (14303961#5000))]);
    (28, [("1s"%string, (62591127#5000)); ("2s"%string, (14920393#5000))]);
    (29, [("1s"%string, (126949153#10000))]);
    (30, [("1s"%string, (132395109#10000))])]);
  (32, [(0, [("1s"%string, (11110991#1000)); ("2p"%string, (3064357#2500)); ("2s"%string, (14258807#10000)); ("3d"%string, (352439#10000)); ("3p"%string, (1316869#10000)); ("3s"%string, (963959#5000)); ("4p"%string, (17959#2500)); ("4s"%string, (4849#400))]);
    (1, [("1s"%string, (111218581#10000)); ("2p"%string, (6181809#5000)); ("2s"%string, (14365877#10000)); ("3d"%string, (57167#1250)); ("3p"%string, (88763#625)); ("3s"%string, (25432#125)); ("4p"%string, (76803#5000)); ("4s"%string, (27111#1250))]);
    (2, [("1s"%string, (111335707#10000)); ("2p"%string, (3119727#2500)); ("2s"%string, (2896019#2000)); ("3d"%string, (287061#5000)); ("3p"%string, (384517#2500)); ("3s"%string, (2147671#10000)); ("4s"%string, (316429#10000))]);
    (3, [("1s"%string, (111487693#10000)); ("2p"%string, (12628159#10000)); ("2s"%string, (14626821#10000)); ("3d"%string, (28761#400)); ("3p"%string, (1682897#10000)); ("3s"%string, (28599#125)); ("4s"%string, (221829#5000))]);
    (4, [("1s"%string, (27914121#2500)); ("2p"%string, (12792299#10000)); ("2s"%string, (1479071#1000)); ("3d"%string, (175847#2000)); ("3p"%string, (922029#5000)); ("3s"%string, (306167#1250))]);
    (5, [("1s"%string, (111969601#10000)); ("2p"%string, (1308829#1000)); ("2s"%string, (7551133#5000)); ("3d"%string, (227063#2000)); ("3p"%string, (2056949#10000)); ("3s"%string, (2712107#10000))]);
    (6, [("1s"%string, (112309091#10000)); ("2p"%string, (6707969#5000)); ("2s"%string, (15439141#10000)); ("3d"%string, (89488#625)); ("3p"%string, (1154993#5000)); ("3s"%string, (2991019#10000))]);
    (7, [("1s"%string, (22535171#2000)); ("2p"%string, (1722137#1250)); ("2s"%string, (987607#625)); ("3d"%string, (1748517#10000)); ("3p"%string, (2598403#10000)); ("3s"%string, (3285989#10000))]);
    (8, [("1s"%string, (56534731#5000)); ("2p"%string, (708593#500)); ("2s"%string, (8094457#5000)); ("3d"%string, (411863#2000)); ("3p"%string, (583171#2000)); ("3s"%string, (1797899#5000))]);
    (9, [("1s"%string, (1418598#125)); ("2p"%string, (2919773#2000)); ("2s"%string, (8299217#5000)); ("3d"%string, (2513341#10000)); ("3p"%string, (3255657#10000)); ("3s"%string, (1959579#5000))]);
    (10, [("1s"%string, (113937519#10000)); ("2p"%string, (7525381#5000)); ("2s"%string, (1706151#1000)); ("3d"%string, (286571#1000)); ("3p"%string, (3603549#10000)); ("3s"%string, (2148757#5000))]);
    (11, [("1s"%string, (114410933#10000)); ("2p"%string, (15541541#10000)); ("2s"%string, (8773537#5000)); ("3d"%string, (3257589#10000)); ("3p"%string, (399891#1000)); ("3s"%string, (4688049#10000))]);
    (12, [("1s"%string, (114909043#10000)); ("2p"%string, (802037#500)); ("2s"%string, (4514383#2500)); ("3d"%string, (1833813#5000)); ("3p"%string, (1095993#2500)); ("3s"%string, (318294#625))]);
    (13, [("1s"%string, (115432523#10000)); ("2p"%string, (2070051#1250)); ("2s"%string, (9295861#5000)); ("3d"%string, (1016567#2500)); ("3p"%string, (239663#500)); ("3s"%string, (110203#200))]);
    (14, [("1s"%string, (115979871#10000)); ("2p"%string, (3430487#2000)); ("2s"%string, (19148153#10000)); ("3p"%string, (658363#1250)); ("3s"%string, (5940113#10000))]);
    (15, [("1s"%string, (116559667#10000)); ("2p"%string, (17639001#10000)); ("2s"%string, (4916669#2500)); ("3p"%string, (565951#1000)); ("3s"%string, (783557#1250))]);
    (16, [("1s"%string, (117159923#10000)); ("2p"%string, (4543923#2500)); ("2s"%string, (4039951#2000)); ("3p"%string, (1519547#2500)); ("3s"%string, (660877#1000))]);
    (17, [("1s"%string, (23556157#2000)); ("2p"%string, (4686323#2500)); ("2s"%string, (829851#400)); ("3p"%string, (6553181#10000)); ("3s"%string, (695223#1000))]);
    (18, [("1s"%string, (118445597#10000)); ("2p"%string, (9668353#5000)); ("2s"%string, (21327881#10000)); ("3p"%string, (7031051#10000)); ("3s"%string, (463308#625))]);
    (19, [("1s"%string, (23824567#2000)); ("2p"%string, (1245351#625)); ("2s"%string, (5477967#2500)); ("3p"%string, (7478313#10000)); ("3s"%string, (7856893#10000))]);
    (20, [("1s"%string, (1497811#125)); ("2p"%string, (10281831#5000)); ("2s"%string, (22520259#10000)); ("3s"%string, (520531#625))]);
    (21, [("1s"%string, (15058439#1250)); ("2p"%string, (2114693#1000)); ("2s"%string, (23062181#10000)); ("3s"%string, (8796997#10000))]);
    (22, [("1s"%string, (1211671#100)); ("2p"%string, (5441761#2500)); ("2s"%string, (4734179#2000))]);
    (23, [("1s"%string, (122809377#10000)); ("2p"%string, (11502241#5000)); ("2s"%string, (6163999#2500))]);
    (24, [("1s"%string, (62256207#5000)); ("2p"%string, (4871487#2000)); ("2s"%string, (25689171#10000))]);
    (25, [("1s"%string, (126275613#10000)); ("2p"%string, (25746877#10000)); ("2s"%string, (26748629#10000))]);
    (26, [("1s"%string, (3204917#250)); ("2p"%string, (13707339#5000)); ("2s"%string, (28074603#10000))]);
    (27, [("1s"%string, (130128027#10000)); ("2p"%string, (14424623#5000)); ("2s"%string, (29313437#10000))]);
    (28, [("1s"%string, (132132813#10000)); ("2s"%string, (30663151#10000))]);
    (29, [("1s"%string, (66864097#5000)); ("2s"%string, (31939387#10000))]);
    (30, [("1s"%string, (135557541#10000))]);
    (31, [("1s"%string, (141194517#10000))])]);
  (33, [(0, [("1s"%string, (29684031#2500)); ("2p"%string, (832211#625)); ("2s"%string, (15436707#10000)); ("3d"%string, (11917#250)); ("3p"%string, (1509293#10000)); ("3s"%string, (2161321#10000)); ("4p"%string, (9037#1000)); ("4s"%string, (141703#10000))]);
    (1, [("1s"%string, (59425739#5000)); ("2p"%string, (6714877#5000)); ("2s"%string, (7775239#5000)); ("3d"%string, (73219#1250)); ("3p"%string, (810039#5000)); ("3s"%string, (56863#250)); ("4p"%string, (89181#5000)); ("4s"%string, (243829#10000))]);
    (2, [("1s"%string, (14873013#1250)); ("2p"%string, (13558741#10000)); ("2s"%string, (15680401#10000)); ("3d"%string, (178007#2500)); ("3p"%string, (872183#5000)); ("3s"%string, (1201551#5000)); ("4p"%string, (276849#10000)); ("4s"%string, (35719#1000))]);
    (3, [("1s"%string, (29780897#2500)); ("2p"%string, (3423891#2500)); ("2s"%string, (316317#200)); ("3d"%string, (169863#2000)); ("3p"%string, (941663#5000)); ("3s"%string, (253639#1000)); ("4s"%string, (236479#5000))]);
    (4, [("1s"%string, (29823661#2500)); ("2p"%string, (13863241#10000)); ("2s"%string, (3995119#2500)); ("3d"%string, (1011159#10000)); ("3p"%string, (20447#100)); ("3s"%string, (1346211#5000)); ("4s"%string, (614053#10000))]);
    (5, [("1s"%string, (119482521#10000)); ("2p"%string, (2809093#2000)); ("2s"%string, (16162083#10000)); ("3d"%string, (296973#2500)); ("3p"%string, (2222273#10000)); ("3s"%string, (2870329#10000))]);
    (6, [("1s"%string, (59914829#5000)); ("2p"%string, (14372999#10000)); ("2s"%string, (8253427#5000)); ("3d"%string, (734823#5000)); ("3p"%string, (491271#2000)); ("3s"%string, (3156859#10000))]);
    (7, [("1s"%string, (1502529#125)); ("2p"%string, (589277#400)); ("2s"%string, (16875543#10000)); ("3d"%string, (896329#5000)); ("3p"%string, (1365551#5000)); ("3s"%string, (864621#2500))]);
    (8, [("1s"%string, (120601683#10000)); ("2p"%string, (15124339#10000)); ("2s"%string, (1079318#625)); ("3d"%string, (2135361#10000)); ("3p"%string, (3041461#10000)); ("3s"%string, (1887681#5000))]);
    (9, [("1s"%string, (24205511#2000)); ("2p"%string, (15550459#10000)); ("2s"%string, (8843317#5000)); ("3d"%string, (617521#2500)); ("3p"%string, (3381019#10000)); ("3s"%string, (2053271#5000))]);
    (10, [("1s"%string, (7592374#625)); ("2p"%string, (16009027#10000)); ("2s"%string, (18126039#10000)); ("3d"%string, (1477071#5000)); ("3p"%string, (1871557#5000)); ("3s"%string, (4450939#10000))]);
    (11, [("1s"%string, (24391809#2000)); ("2p"%string, (824637#500)); ("2s"%string, (9310099#5000)); ("3d"%string, (416273#1250)); ("3p"%string, (2057067#5000)); ("3s"%string, (2425731#5000))]);
    (12, [("1s"%string, (24492761#2000)); ("2p"%string, (8507079#5000)); ("2s"%string, (19136333#10000)); ("3d"%string, (1873217#5000)); ("3p"%string, (2266467#5000)); ("3s"%string, (5263641#10000))]);
    (13, [("1s"%string, (122993069#10000)); ("2p"%string, (17543079#10000)); ("2s"%string, (19677237#10000)); ("3d"%string, (1045257#2500)); ("3p"%string, (2468699#5000)); ("3s"%string, (5689801#10000))]);
    (14, [("1s"%string, (61773883#5000)); ("2p"%string, (18092121#10000)); ("2s"%string, (10120781#5000)); ("3d"%string, (1150641#2500)); ("3p"%string, (2683719#5000)); ("3s"%string, (766063#1250))]);
    (15, [("1s"%string, (124126309#10000)); ("2p"%string, (18716549#10000)); ("2s"%string, (20827989#10000)); ("3p"%string, (5864949#10000)); ("3s"%string, (6579649#10000))]);
    (16, [("1s"%string, (62367667#5000)); ("2p"%string, (19226887#10000)); ("2s"%string, (21371341#10000)); ("3p"%string, (3138337#5000)); ("3s"%string, (6923383#10000))]);
    (17, [("1s"%string, (125365251#10000)); ("2p"%string, (1978953#1000)); ("2s"%string, (10964749#5000)); ("3p"%string, (839703#1250)); ("3s"%string, (3640107#5000))]);
    (18, [("1s"%string, (63008101#5000)); ("2p"%string, (4076901#2000)); ("2s"%string, (5625311#2500)); ("3p"%string, (3603861#5000)); ("3s"%string, (7640171#10000))]);
    (19, [("1s"%string, (126711831#10000)); ("2p"%string, (5250737#2500)); ("2s"%string, (2310861#1000)); ("3p"%string, (771599#1000)); ("3s"%string, (812133#1000))]);
    (20, [("1s"%string, (15927449#1250)); ("2p"%string, (10809219#5000)); ("2s"%string, (11858701#5000)); ("3p"%string, (8184359#10000)); ("3s"%string, (1072721#1250))]);
    (21, [("1s"%string, (128152561#10000)); ("2p"%string, (22282351#10000)); ("2s"%string, (6087891#2500)); ("3s"%string, (4536497#5000))]);
    (22, [("1s"%string, (128821983#10000)); ("2p"%string, (22889359#10000)); ("2s"%string, (4983063#2000)); ("3s"%string, (9560383#10000))]);
    (23, [("1s"%string, (6477521#500)); ("2p"%string, (23534129#10000)); ("2s"%string, (5109627#2000))]);
    (24, [("1s"%string, (8203467#625)); ("2p"%string, (12409753#5000)); ("2s"%string, (26570659#10000))]);
    (25, [("1s"%string, (133023581#10000)); ("2p"%string, (13114067#5000)); ("2s"%string, (1727819#625))]);
    (26, [("1s"%string, (8428489#625)); ("2p"%string, (27656277#10000)); ("2s"%string, (5750337#2000))]);
    (27, [("1s"%string, (136843869#10000)); ("2p"%string, (14712149#5000)); ("2s"%string, (6024419#2000))]);
    (28, [("1s"%string, (27768661#2000)); ("2p"%string, (15456981#5000)); ("2s"%string, (31396493#10000))]);
    (29, [("1s"%string, (140917889#10000)); ("2s"%string, (32793039#10000))]);
    (30, [("1s"%string, (17820967#1250)); ("2s"%string, (8528201#2500))]);
    (31, [("1s"%string, (28891981#2000))]);
    (32, [("1s"%string, (150289337#10000))])]);
  (34, [(0, [("1s"%string, (7914871#625)); ("2p"%string, (3606439#2500)); ("2s"%string, (8336793#5000)); ("3d"%string, (612621#10000)); ("3p"%string, (1712421#10000)); ("3s"%string, (1207301#5000)); ("4p"%string, (5229#625)); ("4s"%string, (38711#2000))]);
    (1, [("1s"%string, (15844407#1250)); ("2p"%string, (14542617#10000)); ("2s"%string, (3357891#2000)); ("3d"%string, (364053#5000)); ("3p"%string, (915397#5000)); ("3s"%string, (2527881#10000)); ("4p"%string, (12771#625)); ("4s"%string, (67817#2500))]);
    (2, [("1s"%string, (126893837#10000)); ("2p"%string, (2935881#2000)); ("2s"%string, (8462717#5000)); ("3d"%string, (858401#10000)); ("3p"%string, (122689#625)); ("3s"%string, (2662453#10000)); ("4p"%string, (308887#10000)); ("4s"%string, (195431#5000))]);
    (3, [("1s"%string, (127048341#10000)); ("2p"%string, (14829073#10000)); ("2s"%string, (17076017#10000)); ("3d"%string, (1003507#10000)); ("3p"%string, (526421#2500)); ("3s"%string, (351297#1250)); ("4p"%string, (422481#10000)); ("4s"%string, (519709#10000))]);
    (4, [("1s"%string, (63604367#5000)); ("2p"%string, (14985931#10000)); ("2s"%string, (1723121#1000)); ("3d"%string, (1159501#10000)); ("3p"%string, (2263743#10000)); ("3s"%string, (2962067#10000)); ("4s"%string, (162529#2500))]);
    (5, [("1s"%string, (15924771#1250)); ("2p"%string, (3792823#2500)); ("2s"%string, (1741293#1000)); ("3d"%string, (83597#625)); ("3p"%string, (2440877#10000)); ("3s"%string, (195818#625)); ("4s"%string, (160903#2000))]);
    (6, [("1s"%string, (31901117#2500)); ("2p"%string, (15370899#10000)); ("2s"%string, (17611883#10000)); ("3d"%string, (1530051#10000)); ("3p"%string, (658523#2500)); ("3s"%string, (831673#2500))]);
    (7, [("1s"%string, (127984771#10000)); ("2p"%string, (1966113#1250)); ("2s"%string, (3597699#2000)); ("3d"%string, (45917#250)); ("3p"%string, (36107#125)); ("3s"%string, (1817983#5000))]);
    (8, [("1s"%string, (128390051#10000)); ("2p"%string, (4029593#2500)); ("2s"%string, (4597057#2500)); ("3d"%string, (2185581#10000)); ("3p"%string, (3184397#10000)); ("3s"%string, (1979799#5000))]);
    (9, [("1s"%string, (128821643#10000)); ("2p"%string, (8270789#5000)); ("2s"%string, (940613#500)); ("3d"%string, (2554017#10000)); ("3p"%string, (28131#80)); ("3s"%string, (4298029#10000))]);
    (10, [("1s"%string, (129279473#10000)); ("2p"%string, (16998627#10000)); ("2s"%string, (1203731#625)); ("3d"%string, (2912419#10000)); ("3p"%string, (3877777#10000)); ("3s"%string, (4650253#10000))]);
    (11, [("1s"%string, (129761743#10000)); ("2p"%string, (17488421#10000)); ("2s"%string, (19728629#10000)); ("3d"%string, (137033#400)); ("3p"%string, (4261793#10000)); ("3s"%string, (5015319#10000))]);
    (12, [("1s"%string, (32568503#2500)); ("2p"%string, (18004041#10000)); ("2s"%string, (20253681#10000)); ("3d"%string, (3825637#10000)); ("3p"%string, (581971#1250)); ("3s"%string, (5437951#10000))]);
    (13, [("1s"%string, (65404991#5000)); ("2p"%string, (4638943#2500)); ("2s"%string, (4160029#2000)); ("3d"%string, (2133079#5000)); ("3p"%string, (5096779#10000)); ("3s"%string, (5871569#10000))]);
    (14, [("1s"%string, (32842583#2500)); ("2p"%string, (1194634#625)); ("2s"%string, (21371321#10000)); ("3d"%string, (4725313#10000)); ("3p"%string, (5521807#10000)); ("3s"%string, (631917#1000))]);
    (15, [("1s"%string, (1649452#125)); ("2p"%string, (157539#80)); ("2s"%string, (10982801#5000)); ("3d"%string, (516967#1000)); ("3p"%string, (373273#625)); ("3s"%string, (3389491#5000))]);
    (16, [("1s"%string, (66282943#5000)); ("2p"%string, (20349071#10000)); ("2s"%string, (5645479#2500)); ("3p"%string, (324683#500)); ("3s"%string, (725129#1000))]);
    (17, [("1s"%string, (133204141#10000)); ("2p"%string, (5220807#2500)); ("2s"%string, (11575079#5000)); ("3p"%string, (6924557#10000)); ("3s"%string, (7610457#10000))]);
    (18, [("1s"%string, (133863721#10000)); ("2p"%string, (5367953#2500)); ("2s"%string, (23733349#10000)); ("3p"%string, (7387881#10000)); ("3s"%string, (1995971#2500))]);
    (19, [("1s"%string, (16818109#1250)); ("2p"%string, (22092131#10000)); ("2s"%string, (12165211#5000)); ("3p"%string, (7892797#10000)); ("3s"%string, (1672151#2000))]);
    (20, [("1s"%string, (33817819#2500)); ("2p"%string, (22737621#10000)); ("2s"%string, (24963479#10000)); ("3p"%string, (2108223#2500)); ("3s"%string, (4431111#5000))]);
    (21, [("1s"%string, (68004841#5000)); ("2p"%string, (23379683#10000)); ("2s"%string, (6399277#2500)); ("3p"%string, (8922447#10000)); ("3s"%string, (2334699#2500))]);
    (22, [("1s"%string, (136773657#10000)); ("2p"%string, (6017387#2500)); ("2s"%string, (6564273#2500)); ("3s"%string, (4924841#5000))]);
    (23, [("1s"%string, (137469949#10000)); ("2p"%string, (24700347#10000)); ("2s"%string, (26842721#10000)); ("3s"%string, (1294503#1250))]);
    (24, [("1s"%string, (27645467#2000)); ("2p"%string, (25369803#10000)); ("2s"%string, (13749843#5000))]);
    (25, [("1s"%string, (69997623#5000)); ("2p"%string, (26703147#10000)); ("2s"%string, (2855973#1000))]);
    (26, [("1s"%string, (70914279#5000)); ("2p"%string, (5633417#2000)); ("2s"%string, (29675697#10000))]);
    (27, [("1s"%string, (3593253#250)); ("2p"%string, (7408723#2500)); ("2s"%string, (1926904#625))]);
    (28, [("1s"%string, (145784991#10000)); ("2p"%string, (6301673#2000)); ("2s"%string, (32244781#10000))]);
    (29, [("1s"%string, (369633#25)); ("2p"%string, (33053349#10000)); ("2s"%string, (1342181#400))]);
    (30, [("1s"%string, (37499463#2500)); ("2s"%string, (3499803#1000))]);
    (31, [("1s"%string, (151702419#10000)); ("2s"%string, (36361531#10000))]);
    (32, [("1s"%string, (30731559#2000))]);
    (33, [("1s"%string, (3992029#250))])]);
  (35, [(0, [("1s"%string, (67405197#5000)); ("2p"%string, (15583731#10000)); ("2s"%string, (4490777#2500)); ("3d"%string, (759261#10000)); ("3p"%string, (1933233#10000)); ("3s"%string, (107191#400)); ("4p"%string, (21133#2000)); ("4s"%string, (124497#5000))]);
    (1, [("1s"%string, (134934981#10000)); ("2p"%string, (15706547#10000)); ("2s"%string, (3617291#2000)); ("3d"%string, (880499#10000)); ("3p"%string, (2050407#10000)); ("3s"%string, (560059#2000)); ("4p"%string, (201363#10000)); ("4s"%string, (166581#5000))]);
    (2, [("1s"%string, (13507583#1000)); ("2p"%string, (15846319#10000)); ("2s"%string, (18224959#10000)); ("3d"%string, (508873#5000)); ("3p"%string, (1095467#5000)); ("3s"%string, (2934927#10000)); ("4p"%string, (341237#10000)); ("4s"%string, (212387#5000))]);
    (3, [("1s"%string, (135235933#10000)); ("2p"%string, (2000469#1250)); ("2s"%string, (4595349#2500)); ("3d"%string, (1166993#10000)); ("3p"%string, (234273#1000)); ("3s"%string, (3088741#10000)); ("4p"%string, (46139#1000)); ("4s"%string, (280073#5000))]);
    (4, [("1s"%string, (27082199#2000)); ("2p"%string, (16172767#10000)); ("2s"%string, (18551223#10000)); ("3d"%string, (1329899#10000)); ("3p"%string, (625567#2500)); ("3s"%string, (3254497#10000)); ("4p"%string, (58909#1000)); ("4s"%string, (175777#2500))]);
    (5, [("1s"%string, (33897859#2500)); ("2p"%string, (1021794#625)); ("2s"%string, (9362617#5000)); ("3d"%string, (751723#5000)); ("3p"%string, (1339063#5000)); ("3s"%string, (855867#2500)); ("4s"%string, (169459#2000))]);
    (6, [("1s"%string, (67899333#5000)); ("2p"%string, (16551129#10000)); ("2s"%string, (9461723#5000)); ("3d"%string, (212129#1250)); ("3p"%string, (717577#2500)); ("3s"%string, (225549#625)); ("4s"%string, (1014403#10000))]);
    (7, [("1s"%string, (6801153#500)); ("2p"%string, (16767717#10000)); ("2s"%string, (2392407#1250)); ("3d"%string, (190489#1000)); ("3p"%string, (769671#2500)); ("3s"%string, (1908793#5000))]);
    (8, [("1s"%string, (68218001#5000)); ("2p"%string, (4288861#2500)); ("2s"%string, (19546991#10000)); ("3d"%string, (111793#500)); ("3p"%string, (3353047#10000)); ("3s"%string, (4148967#10000))]);
    (9, [("1s"%string, (136873507#10000)); ("2p"%string, (702999#400)); ("2s"%string, (19977261#10000)); ("3d"%string, (2610313#10000)); ("3p"%string, (1834811#5000)); ("3s"%string, (898839#2000))]);
    (10, [("1s"%string, (137336969#10000)); ("2p"%string, (2253561#1250)); ("2s"%string, (2553909#1250)); ("3d"%string, (1502087#5000)); ("3p"%string, (4022881#10000)); ("3s"%string, (606723#1250))]);
    (11, [("1s"%string, (5513063#400)); ("2p"%string, (9258099#5000)); ("2s"%string, (20908313#10000)); ("3d"%string, (3386161#10000)); ("3p"%string, (1101463#2500)); ("3s"%string, (5226817#10000))]);
    (12, [("1s"%string, (138340511#10000)); ("2p"%string, (380739#200)); ("2s"%string, (21406493#10000)); ("3d"%string, (245516#625)); ("3p"%string, (4811639#10000)); ("3s"%string, (280619#500))]);
    (13, [("1s"%string, (69441927#5000)); ("2p"%string, (19584273#10000)); ("2s"%string, (21962281#10000)); ("3d"%string, (217601#500)); ("3p"%string, (5228783#10000)); ("3s"%string, (3028531#5000))]);
    (14, [("1s"%string, (69725441#5000)); ("2p"%string, (10083129#5000)); ("2s"%string, (22538833#10000)); ("3d"%string, (4816629#10000)); ("3p"%string, (1138251#2000)); ("3s"%string, (1302377#2000))]);
    (15, [("1s"%string, (140042291#10000)); ("2p"%string, (207539#100)); ("2s"%string, (23140171#10000)); ("3d"%string, (1325099#2500)); ("3p"%string, (383569#625)); ("3s"%string, (1396173#2000))]);
    (16, [("1s"%string, (70329611#5000)); ("2p"%string, (21361211#10000)); ("2s"%string, (23764291#10000)); ("3d"%string, (2883801#5000)); ("3p"%string, (1652019#2500)); ("3s"%string, (3730881#5000))]);
    (17, [("1s"%string, (17662511#1250)); ("2p"%string, (22050107#10000)); ("2s"%string, (3051303#1250)); ("3p"%string, (7153101#10000)); ("3s"%string, (7955173#10000))]);
    (18, [("1s"%string, (3549189#250)); ("2p"%string, (22608003#10000)); ("2s"%string, (1000139#400)); ("3p"%string, (1900779#2500)); ("3s"%string, (4164869#5000))]);
    (19, [("1s"%string, (142656853#10000)); ("2p"%string, (23222581#10000)); ("2s"%string, (25611769#10000)); ("3p"%string, (8088887#10000)); ("3s"%string, (4359973#5000))]);
    (20, [("1s"%string, (71684171#5000)); ("2p"%string, (4773647#2000)); ("2s"%string, (26234271#10000)); ("3p"%string, (430427#500)); ("3s"%string, (2278553#2500))]);
    (21, [("1s"%string, (9007839#625)); ("2p"%string, (24540687#10000)); ("2s"%string, (5378569#2000)); ("3p"%string, (9181881#10000)); ("3s"%string, (9635711#10000))]);
    (22, [("1s"%string, (7244731#500)); ("2p"%string, (12604691#5000)); ("2s"%string, (13775701#5000)); ("3p"%string, (1938541#2000)); ("3s"%string, (2532031#2500))]);
    (23, [("1s"%string, (14568969#1000)); ("2p"%string, (25925283#10000)); ("2s"%string, (28237279#10000)); ("3s"%string, (10658711#10000))]);
    (24, [("1s"%string, (9150809#625)); ("2p"%string, (26579949#10000)); ("2s"%string, (3605607#1250)); ("3s"%string, (447363#400))]);
    (25, [("1s"%string, (73599691#5000)); ("2p"%string, (1363707#500)); ("2s"%string, (14763013#5000))]);
    (26, [("1s"%string, (149030213#10000)); ("2p"%string, (7163863#2500)); ("2s"%string, (1913979#625))]);
    (27, [("1s"%string, (150928819#10000)); ("2p"%string, (30174299#10000)); ("2s"%string, (3972667#1250))]);
    (28, [("1s"%string, (152899887#10000)); ("2p"%string, (15841383#5000)); ("2s"%string, (16492551#5000))]);
    (29, [("1s"%string, (19377693#1250)); ("2p"%string, (4208419#1250)); ("2s"%string, (17221523#5000))]);
    (30, [("1s"%string, (157159309#10000)); ("2p"%string, (35267891#10000)); ("2s"%string, (8946997#2500))]);
    (31, [("1s"%string, (9960893#625)); ("2s"%string, (7455729#2000))]);
    (32, [("1s"%string, (80566903#5000)); ("2s"%string, (19343031#5000))]);
    (33, [("1s"%string, (32630557#2000))]);
    (34, [("1s"%string, (8468581#500))])]);
  (36, [(0, [("1s"%string, (143254841#10000)); ("2p"%string, (16790843#10000)); ("2s"%string, (4826471#2500)); ("3d"%string, (460073#5000)); ("3p"%string, (2169161#10000)); ("3s"%string, (1478637#5000)); ("4p"%string, (12879#1000)); ("4s"%string, (308527#10000))]);
    (1, [("1s"%string, (71693641#5000)); ("2p"%string, (2114839#1250)); ("2s"%string, (19436907#10000)); ("3d"%string, (208923#2000)); ("3p"%string, (457901#2000)); ("3s"%string, (77127#250)); ("4p"%string, (28849#1250)); ("4s"%string, (99693#2500))]);
    (2, [("1s"%string, (28706963#2000)); ("2p"%string, (17063637#10000)); ("2s"%string, (19582397#10000)); ("3d"%string, (296639#2500)); ("3p"%string, (2427133#10000)); ("3s"%string, (3226471#10000)); ("4p"%string, (171483#5000)); ("4s"%string, (99297#2000))]);
    (3, [("1s"%string, (143697357#10000)); ("2p"%string, (17224299#10000)); ("2s"%string, (19741437#10000)); ("3d"%string, (33579#250)); ("3p"%string, (323407#1250)); ("3s"%string, (1690001#5000)); ("4p"%string, (499429#10000)); ("4s"%string, (75049#1250))]);
    (4, [("1s"%string, (575511#40)); ("2p"%string, (17400987#10000)); ("2s"%string, (9958471#5000)); ("3d"%string, (377553#2500)); ("3p"%string, (689169#2500)); ("3s"%string, (142071#400)); ("4p"%string, (317269#5000)); ("4s"%string, (750429#10000))]);
    (5, [("1s"%string, (144072641#10000)); ("2p"%string, (17588661#10000)); ("2s"%string, (20105267#10000)); ("3d"%string, (1689973#10000)); ("3p"%string, (2932879#10000)); ("3s"%string, (1867141#5000)); ("4p"%string, (387899#5000)); ("4s"%string, (113317#1250))]);
    (6, [("1s"%string, (144272577#10000)); ("2p"%string, (889151#500)); ("2s"%string, (253718#125)); ("3d"%string, (376067#2000)); ("3p"%string, (3125663#10000)); ("3s"%string, (3919817#10000)); ("4s"%string, (265991#2500))]);
    (7, [("1s"%string, (144497241#10000)); ("2p"%string, (18002111#10000)); ("2s"%string, (20511747#10000)); ("3d"%string, (104453#500)); ("3p"%string, (208279#625)); ("3s"%string, (2059501#5000)); ("4s"%string, (1243421#10000))]);
    (8, [("1s"%string, (144739473#10000)); ("2p"%string, (9117693#5000)); ("2s"%string, (20744121#10000)); ("3d"%string, (2311949#10000)); ("3p"%string, (71113#200)); ("3s"%string, (2171317#5000))]);
    (9, [("1s"%string, (145184581#10000)); ("2p"%string, (2331529#1250)); ("2s"%string, (1323897#625)); ("3d"%string, (1333421#5000)); ("3p"%string, (384949#1000)); ("3s"%string, (4695587#10000))]);
    (10, [("1s"%string, (145653983#10000)); ("2p"%string, (19101379#10000)); ("2s"%string, (21642681#10000)); ("3d"%string, (306651#1000)); ("3p"%string, (418651#1000)); ("3s"%string, (2531027#5000))]);
    (11, [("1s"%string, (146149131#10000)); ("2p"%string, (3916993#2000)); ("2s"%string, (2765803#1250)); ("3d"%string, (871431#2500)); ("3p"%string, (912177#2000)); ("3s"%string, (1088529#2000))]);
    (12, [("1s"%string, (5866811#400)); ("2p"%string, (2512873#1250)); ("2s"%string, (4526543#2000)); ("3d"%string, (1945561#5000)); ("3p"%string, (4965139#10000)); ("3s"%string, (1459051#2500))]);
    (13, [("1s"%string, (36803959#2500)); ("2p"%string, (5163629#2500)); ("2s"%string, (4631989#2000)); ("3d"%string, (4461277#10000)); ("3p"%string, (1078513#2000)); ("3s"%string, (6242139#10000))]);
    (14, [("1s"%string, (73895013#5000)); ("2p"%string, (21233531#10000)); ("2s"%string, (23746409#10000)); ("3d"%string, (306826#625)); ("3p"%string, (2916527#5000)); ("3s"%string, (268353#400))]);
    (15, [("1s"%string, (14838813#1000)); ("2p"%string, (218457#100)); ("2s"%string, (3044101#1250)); ("3d"%string, (53979#100)); ("3p"%string, (3158373#5000)); ("3s"%string, (449048#625))]);
    (16, [("1s"%string, (149010471#10000)); ("2p"%string, (11231163#5000)); ("2s"%string, (24984161#10000)); ("3d"%string, (147657#250)); ("3p"%string, (6783333#10000)); ("3s"%string, (1918753#2500))]);
    (17, [("1s"%string, (149658489#10000)); ("2p"%string, (2887327#1250)); ("2s"%string, (25638031#10000)); ("3d"%string, (3198163#5000)); ("3p"%string, (7274553#10000)); ("3s"%string, (8176909#10000))]);
    (18, [("1s"%string, (150330491#10000)); ("2p"%string, (23819609#10000)); ("2s"%string, (3289237#1250)); ("3p"%string, (1568653#2000)); ("3s"%string, (1738287#2000))]);
    (19, [("1s"%string, (37756797#2500)); ("2p"%string, (24401247#10000)); ("2s"%string, (5386353#2000)); ("3p"%string, (4156191#5000)); ("3s"%string, (9081383#10000))]);
    (20, [("1s"%string, (9484139#625)); ("2p"%string, (3130231#1250)); ("2s"%string, (1378259#500)); ("3p"%string, (882059#1000)); ("3s"%string, (4744241#5000))]);
    (21, [("1s"%string, (152488171#10000)); ("2p"%string, (12856413#5000)); ("2s"%string, (28213241#10000)); ("3p"%string, (9355007#10000)); ("3s"%string, (4950347#5000))]);
    (22, [("1s"%string, (19159481#1250)); ("2p"%string, (105649#40)); ("2s"%string, (7224309#2500)); ("3p"%string, (4981581#5000)); ("3s"%string, (417679#400))]);
    (23, [("1s"%string, (38519003#2500)); ("2p"%string, (27107589#10000)); ("2s"%string, (1479039#500)); ("3p"%string, (2099057#2000)); ("3s"%string, (1368739#1250))]);
    (24, [("1s"%string, (77451131#5000)); ("2p"%string, (27849613#10000)); ("2s"%string, (30292613#10000)); ("3s"%string, (11500247#10000))]);
    (25, [("1s"%string, (77826297#5000)); ("2p"%string, (3566023#1250)); ("2s"%string, (15461089#5000)); ("3s"%string, (12044657#10000))]);
    (26, [("1s"%string, (9779261#625)); ("2p"%string, (3655897#1250)); ("2s"%string, (15813813#5000))]);
    (27, [("1s"%string, (15836203#1000)); ("2p"%string, (3834561#1250)); ("2s"%string, (32762967#10000))]);
    (28, [("1s"%string, (160326049#10000)); ("2p"%string, (32249921#10000)); ("2s"%string, (33962551#10000))]);
    (29, [("1s"%string, (162366673#10000)); ("2p"%string, (33799941#10000)); ("2s"%string, (17607977#5000))]);
    (30, [("1s"%string, (82277577#5000)); ("2p"%string, (35901739#10000)); ("2s"%string, (18358661#5000))]);
    (31, [("1s"%string, (166763337#10000)); ("2p"%string, (9389527#2500)); ("2s"%string, (19048709#5000))]);
    (32, [("1s"%string, (16904891#1000)); ("2s"%string, (39635409#10000))]);
    (33, [("1s"%string, (170863621#10000)); ("2s"%string, (41086927#10000))]);
    (34, [("1s"%string, (2161833#125))]);
    (35, [("1s"%string, (44840631#2500))])])].
