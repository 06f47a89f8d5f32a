(** The tables of math.py as rational lists. *)
From Coq Require Import Reals List QArith Qreals.
From Verif Require Import M_Math L_Poly.
Import ListNotations.
Open Scope R_scope.

Definition qa_12 : list Q := [(575834152995465 # 100000000); (130964880355883 # 10000000); (107608632249013 # 10000000); (393536421893014 # 100000000); (64249323371564 # 100000000); (416031909245777 # 10000000000); (777238678539648 # 1000000000000); (1 # 1)].
Lemma ea_12 : a_12 = rq qa_12. Proof. reflexivity. Qed.
Definition qb_12 : list Q := [(649759261942269 # 100000000); (170750501625775 # 10000000); (16928813485616 # 1000000); (795192647756086 # 100000000); (183167424554505 # 100000000); (195155948326832 # 1000000000); (817922106644547 # 100000000000); (902129136642157 # 10000000000000)].
Lemma eb_12 : b_12 = rq qb_12. Proof. reflexivity. Qed.
Definition qc_12 : list Q := [(485378381173415 # 10000000000000000000000000000); (164429113030738 # 10000000000000000000000000); (376794942277806 # 100000000000000000000000); (469233883900644 # 1000000000000000000000); (340679845803144 # 10000000000000000000); (132212995937796 # 100000000000000000); (260768398973913 # 10000000000000000); (248653216266227 # 1000000000000000); (108037861921488 # 100000000000000); (191247528779676 # 100000000000000); (1 # 1)].
Lemma ec_12 : c_12 = rq qc_12. Proof. reflexivity. Qed.
Definition qd_12 : list Q := [(728067571760518 # 10000000000000000000000000000); (245745452167585 # 10000000000000000000000000); (562152894375277 # 100000000000000000000000); (696888634549649 # 1000000000000000000000); (502360015186394 # 10000000000000000000); (192040136756592 # 100000000000000000); (366887808002874 # 10000000000000000); (324095226486468 # 1000000000000000); (116434871200131 # 100000000000000); (134981244060549 # 100000000000000); (20131183697593 # 100000000000000); (-214562434782759 # 10000000000000000)].
Lemma ed_12 : d_12 = rq qd_12. Proof. reflexivity. Qed.
Definition qa_neg12 : list Q := [(171446374704454 # 10000000); (388148302324068 # 10000000); (316743385304962 # 10000000); (114587609192151 # 10000000); (183696370756153 # 100000000); (114980998186874 # 1000000000); (198276889924768 # 100000000000); (1 # 1)].
Lemma ea_neg12 : a_neg12 = rq qa_neg12. Proof. reflexivity. Qed.
Definition qb_neg12 : list Q := [(967282587452899 # 100000000); (287386436731785 # 10000000); (326070130734158 # 10000000); (177657027846367 # 10000000); (481648022267831 # 100000000); (613709569333207 # 1000000000); (313595854332114 # 10000000000); (435061725080755 # 1000000000000)].
Lemma eb_neg12 : b_neg12 = rq qb_neg12. Proof. reflexivity. Qed.
Definition qc_neg12 : list Q := [(-446620341924942 # 100000000000000000000000000000); (-158654991146236 # 100000000000000000000000000); (-444467627042232 # 1000000000000000000000000); (-684738791621745 # 10000000000000000000000); (-664932238528105 # 100000000000000000000); (-369976170193942 # 1000000000000000000); (-112295393687006 # 10000000000000000); (-160926102124442 # 1000000000000000); (-852408612877447 # 1000000000000000); (-745519953763928 # 1000000000000000); (298435207466372 # 100000000000000); (1 # 1)].
Lemma ec_neg12 : c_neg12 = rq qc_neg12. Proof. reflexivity. Qed.
Definition qd_neg12 : list Q := [(-223310170962369 # 100000000000000000000000000000); (-794193282071464 # 1000000000000000000000000000); (-222564376956228 # 1000000000000000000000000); (-343299431079845 # 10000000000000000000000); (-333919612678907 # 100000000000000000000); (-186432212187088 # 1000000000000000000); (-569764436880529 # 100000000000000000); (-834904593067194 # 10000000000000000); (-47877084400944 # 100000000000000); (-499759250374148 # 1000000000000000); (186795964993052 # 100000000000000); (416485970495288 # 1000000000000000)].
Lemma ed_neg12 : d_neg12 = rq qd_neg12. Proof. reflexivity. Qed.
Definition qa_32 : list Q := [(432326386604283 # 10000000000); (855472308218786 # 10000000000); (595275291210962 # 10000000000); (177294861572005 # 10000000000); (22187660779646 # 10000000000); (990562948053193 # 10000000000000); (1 # 1)].
Lemma ea_32 : a_32 = rq qa_32. Proof. reflexivity. Qed.
Definition qb_32 : list Q := [(325218725353467 # 10000000000); (701022511904373 # 10000000000); (550859144223638 # 10000000000); (1959420745764 # 100000000); (320803912586318 # 100000000000); (220853967067789 # 1000000000000); (505580641737527 # 100000000000000); (199507945223266 # 1000000000000)].
Lemma eb_32 : b_32 = rq qb_32. Proof. reflexivity. Qed.
Definition qc_32 : list Q := [(280452693148553 # 1000000000000000000000000000); (860096863656367 # 10000000000000000000000000); (162974620742993 # 10000000000000000000000); (16359884375205 # 10000000000000000000); (912915407846722 # 10000000000000000000); (262988766922117 # 100000000000000000); (385682997219346 # 10000000000000000); (278383256609605 # 1000000000000000); (902250179334496 # 1000000000000000); (1 # 1)].
Lemma ec_32 : c_32 = rq qc_32. Proof. reflexivity. Qed.
Definition qd_32 : list Q := [(701131732871184 # 1000000000000000000000000000); (210699282897576 # 1000000000000000000000000); (394452010378723 # 10000000000000000000000); (384703231868724 # 100000000000000000000); (204569943213216 # 1000000000000000000); (531999109566385 # 100000000000000000); (639899717779153 # 10000000000000000); (314236143831882 # 1000000000000000); (470252591891375 # 1000000000000000); (-215540156936373 # 10000000000000000); (234829436438087 # 100000000000000000)].
Lemma ed_32 : d_32 = rq qd_32. Proof. reflexivity. Qed.
Definition qa_52 : list Q := [(661606300631656 # 10000000000); (120132462801652 # 1000000000); (767255995316812 # 10000000000); (210427138842443 # 10000000000); (244325236813275 # 100000000000); (102589947781696 # 1000000000000); (1 # 1)].
Lemma ea_52 : a_52 = rq qa_52. Proof. reflexivity. Qed.
Definition qb_52 : list Q := [(199078071053871 # 10000000000); (379076097261066 # 10000000000); (260117136841197 # 10000000000); (797584657659364 # 100000000000); (110886130159658 # 100000000000); (635483623268093 # 10000000000000); (116951072617142 # 100000000000000); (331482978240026 # 100000000000000000)].
Lemma eb_52 : b_52 = rq qb_52. Proof. reflexivity. Qed.
Definition qc_52 : list Q := [(842667076131315 # 100000000000000000000000000); (231618876821567 # 100000000000000000000000); (354323824923987 # 1000000000000000000000); (277981736000034 # 10000000000000000000); (114008027400645 # 100000000000000000); (232779790773633 # 10000000000000000); (239564845938301 # 1000000000000000); (124415366126179 # 100000000000000); (318831203950106 # 100000000000000); (342040216997894 # 100000000000000); (1 # 1)].
Lemma ec_52 : c_52 = rq qc_52. Proof. reflexivity. Qed.
Definition qd_52 : list Q := [(294933476646033 # 10000000000000000000000000); (768215783076936 # 100000000000000000000000); (112919616415947 # 100000000000000000000); (809451165406274 # 10000000000000000000); (281111224925648 # 100000000000000000); (399937801931919 # 10000000000000000); (227132567866839 # 1000000000000000); (53188604522268 # 100000000000000); (370866321410385 # 1000000000000000); (227326643192516 # 10000000000000000)].
Lemma ed_52 : d_52 = rq qd_52. Proof. reflexivity. Qed.
Definition qa_inv : list Q := [(1999266880833 # 100000000); (5702479099336 # 1000000000); (6610132843877 # 10000000000); (3818838129486 # 100000000000); (1 # 1)].
Lemma ea_inv : a_inv = rq qa_inv. Proof. reflexivity. Qed.
Definition qb_inv : list Q := [(1771804140488 # 100000000); (-2014785161019 # 1000000000); (9130355392717 # 100000000000); (-1670718177489 # 1000000000000)].
Lemma eb_inv : b_inv = rq qb_inv. Proof. reflexivity. Qed.
Definition qc_inv : list Q := [(34873722 # 1000000); (-26922515 # 1000000); (1 # 1)].
Lemma ec_inv : c_inv = rq qc_inv. Proof. reflexivity. Qed.
Definition qd_inv : list Q := [(26612832 # 1000000); (-2045293 # 100000); (11808945 # 1000000)].
Lemma ed_inv : d_inv = rq qd_inv. Proof. reflexivity. Qed.
Definition qr0_upper : list Q := [(127456123 # 1000000); (303620672 # 10000000); (229733586 # 100000000)].
Lemma er0_upper : r0_upper = rq qr0_upper. Proof. reflexivity. Qed.
Definition qr0_lower : list Q := [(112955041 # 1000000); (-181545791 # 10000000); (1 # 1)].
Lemma er0_lower : r0_lower = rq qr0_lower. Proof. reflexivity. Qed.
Definition qr1_upper : list Q := [(223158685 # 10000000); (122487649 # 1000000); (135023156 # 1000000); (305460708 # 10000000)].
Lemma er1_upper : r1_upper = rq qr1_upper. Proof. reflexivity. Qed.
Definition qr1_lower : list Q := [(28056686 # 1000000); (599641578 # 10000000); (278629074 # 10000000); (1 # 1)].
Lemma er1_lower : r1_lower = rq qr1_lower. Proof. reflexivity. Qed.
Definition qr2_upper : list Q := [(740135089 # 10000000); (294367987 # 1000000); (294232354 # 1000000); (649306737 # 10000000)].
Lemma er2_upper : r2_upper = rq qr2_upper. Proof. reflexivity. Qed.
Definition qr2_lower : list Q := [(278728584 # 10000000); (620649704 # 10000000); (27114881 # 1000000); (1 # 1)].
Lemma er2_lower : r2_lower = rq qr2_lower. Proof. reflexivity. Qed.
Definition qr3_upper : list Q := [(156549383 # 1000000); (612130579 # 1000000); (639532875 # 1000000); (145238686 # 1000000)].
Lemma er3_upper : r3_upper = rq qr3_upper. Proof. reflexivity. Qed.
Definition qr3_lower : list Q := [(254019873 # 10000000); (593035998 # 10000000); (269857305 # 10000000); (1 # 1)].
Lemma er3_lower : r3_lower = rq qr3_lower. Proof. reflexivity. Qed.
Definition qr4_upper : list Q := [(376286772 # 1000000); (144993277 # 100000); (148747498 # 100000); (333722383 # 1000000)].
Lemma er4_upper : r4_upper = rq qr4_upper. Proof. reflexivity. Qed.
Definition qr4_lower : list Q := [(272967945 # 10000000); (611014417 # 10000000); (271844466 # 10000000); (1 # 1)].
Lemma er4_lower : r4_lower = rq qr4_lower. Proof. reflexivity. Qed.
Definition qrS_upper : list Q := [(197450048 # 100000); (144437558 # 1000000); (1 # 1)].
Lemma erS_upper : rS_upper = rq qrS_upper. Proof. reflexivity. Qed.
Definition qrS_lower : list Q := [(103906494 # 10000000); (669052603 # 1000000000)].
Lemma erS_lower : rS_lower = rq qrS_lower. Proof. reflexivity. Qed.
