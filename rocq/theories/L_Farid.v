(** Certificates for the sign of the polynomials in the momentum-distribution fits of
    [eelfc_farid] (jaxrts/ee_localfieldcorrections.py:206-242): on each piece [a, b] the polynomial is a
    combination of (x - a)^i (b - x)^j with positive coefficients. *)
From Coq Require Import Reals Lra Lia.
Open Scope R_scope.

Lemma two_pow y z i j : 0 <= y -> 0 <= z -> 0 <= y ^ i * z ^ j.
Proof. intros. apply Rmult_le_pos; apply pow_le; assumption. Qed.
Lemma pow_sum_pos y z n : 0 <= y -> 0 <= z -> 0 < y + z -> 0 < y ^ 0 * z ^ n + y ^ n * z ^ 0.
Proof.
  intros Hy Hz H. cbn. destruct (Rle_lt_or_eq_dec 0 y Hy) as [Hy'|<-].
  - pose proof (pow_lt y n Hy'). pose proof (pow_le z n Hz). lra.
  - pose proof (pow_lt z n ltac:(lra)). pose proof (pow_le 0 n ltac:(lra)). lra.
Qed.
Ltac all_nonneg y z :=
  repeat match goal with
  | |- context [y ^ ?i * z ^ ?j] => let t := fresh "t" in let H := fresh "P" in
      pose proof (two_pow y z i j ltac:(lra) ltac:(lra)) as H; set (t := y ^ i * z ^ j) in *
  end.
Ltac last_power y z :=
  match goal with |- context [y ^ 0 * z ^ ?n] => pose proof (pow_sum_pos y z n ltac:(lra) ltac:(lra) ltac:(lra)) end.
Ltac bernstein y z := last_power y z; all_nonneg y z; lra.
Definition fd2_num (x : R) : R := (22963827 / 10 ^ 10) - 56991691 / 10 ^ 9 * x + 8533622 / 10 ^ 7 * x ^ 2 + 87736539 / 10 ^ 7 * x ^ 3 - 7881997 / 10 ^ 7 * x ^ 4 + 12707788 / 10 ^ 9 * x ^ 5.
Definition fd2_den (x : R) : R := 799684540 / 10 ^ 7 + 1405268938 / 10 ^ 7 * x + 352575566 / 10 ^ 7 * x ^ 2 + 106331769 / 10 ^ 7 * x ^ 3 - x ^ 4.
Definition fd4_num (x : R) : R := 230118890 / 10 ^ 7 - 648378723 / 10 ^ 7 * x + 635105927 / 10 ^ 7 * x ^ 2
                 - 139457829 / 10 ^ 7 * x ^ 3 - 126252782 / 10 ^ 7 * x ^ 4 + 138524989 / 10 ^ 7 * x ^ 5
                 - 52740937 / 10 ^ 7 * x ^ 6 + 10156885 / 10 ^ 7 * x ^ 7 - 11039532 / 10 ^ 9 * x ^ 8.
Definition fd4_den (x : R) : R := x ^ 6 + 95753544 / 10 ^ 7 - 329770151 / 10 ^ 7 * x + 482528870 / 10 ^ 7 * x ^ 2
                 - 387189788 / 10 ^ 7 * x ^ 3 + 205595956 / 10 ^ 7 * x ^ 4 - 63066750 / 10 ^ 7 * x ^ 5.

Lemma fd2_num_pos x : 0 <= x <= 139 / 10 -> 0 < fd2_num x.
Proof.
  unfold fd2_num. intros [H0 HX].
  destruct (Rle_or_lt x (1 / 5)) as [H|H].
  { match goal with |- 0 < ?p => replace p with ((14352391875 * ((x - 0) ^ 0 * (1 / 5 - x) ^ 5) + 522345625 * ((x - 0) ^ 1 * (1 / 5 - x) ^ 4) + 71906013750 * ((x - 0) ^ 2 * (1 / 5 - x) ^ 3) + 794790581250 * ((x - 0) ^ 3 * (1 / 5 - x) ^ 2) + 1296308547375 * ((x - 0) ^ 4 * (1 / 5 - x) ^ 1) + 587279441701 * ((x - 0) ^ 5 * (1 / 5 - x) ^ 0)) / 2000000000) by field end. apply Rdiv_lt_0_compat; [bernstein (x - 0) (1 / 5 - x)|lra]. }
  apply Rlt_le in H. clear H0. rename H into H0.
  destruct (Rle_or_lt x (9 / 20)) as [H|H].
  { match goal with |- 0 < ?p => replace p with ((75171768537728 * ((x - 1 / 5) ^ 0 * (9 / 20 - x) ^ 5) + 638273028469440 * ((x - 1 / 5) ^ 1 * (9 / 20 - x) ^ 4) + 2097844590252480 * ((x - 1 / 5) ^ 2 * (9 / 20 - x) ^ 3) + 3317465501008080 * ((x - 1 / 5) ^ 3 * (9 / 20 - x) ^ 2) + 2516207090222840 * ((x - 1 / 5) ^ 4 * (9 / 20 - x) ^ 1) + 733494847494903 * ((x - 1 / 5) ^ 5 * (9 / 20 - x) ^ 0)) / 781250000000) by field end. apply Rdiv_lt_0_compat; [bernstein (x - 1 / 5) (9 / 20 - x)|lra]. }
  apply Rlt_le in H. clear H0. rename H into H0.
  destruct (Rle_or_lt x (9 / 10)) as [H|H].
  { match goal with |- 0 < ?p => replace p with ((244498282498301 * ((x - 9 / 20) ^ 0 * (9 / 10 - x) ^ 5) + 1913251700842510 * ((x - 9 / 20) ^ 1 * (9 / 10 - x) ^ 4) + 5842616442658040 * ((x - 9 / 20) ^ 2 * (9 / 10 - x) ^ 3) + 8672671201272080 * ((x - 9 / 20) ^ 3 * (9 / 10 - x) ^ 2) + 6239702160968080 * ((x - 9 / 20) ^ 4 * (9 / 10 - x) ^ 1) + 1740956515857632 * ((x - 9 / 20) ^ 5 * (9 / 10 - x) ^ 0)) / 4920750000000) by field end. apply Rdiv_lt_0_compat; [bernstein (x - 9 / 20) (9 / 10 - x)|lra]. }
  apply Rlt_le in H. clear H0. rename H into H0.
  destruct (Rle_or_lt x (7 / 4)) as [H|H].
  { match goal with |- 0 < ?p => replace p with ((5222869547572896 * ((x - 9 / 10) ^ 0 * (7 / 4 - x) ^ 5) + 40083136775011600 * ((x - 9 / 10) ^ 1 * (7 / 4 - x) ^ 4) + 120128689028654000 * ((x - 9 / 10) ^ 2 * (7 / 4 - x) ^ 3) + 175082936050875000 * ((x - 9 / 10) ^ 3 * (7 / 4 - x) ^ 2) + 123692729003386250 * ((x - 9 / 10) ^ 4 * (7 / 4 - x) ^ 1) + 33882725564163125 * ((x - 9 / 10) ^ 5 * (7 / 4 - x) ^ 0)) / 354964250000000) by field end. apply Rdiv_lt_0_compat; [bernstein (x - 9 / 10) (7 / 4 - x)|lra]. }
  apply Rlt_le in H. clear H0. rename H into H0.
  destruct (Rle_or_lt x (7 / 2)) as [H|H].
  { match goal with |- 0 < ?p => replace p with ((54212360902661 * ((x - 7 / 4) ^ 0 * (7 / 2 - x) ^ 5) + 421671824147190 * ((x - 7 / 4) ^ 1 * (7 / 2 - x) ^ 4) + 1274366387668600 * ((x - 7 / 4) ^ 2 * (7 / 2 - x) ^ 3) + 1860199490720720 * ((x - 7 / 4) ^ 3 * (7 / 2 - x) ^ 2) + 1304797846818320 * ((x - 7 / 4) ^ 4 * (7 / 2 - x) ^ 1) + 351772255262816 * ((x - 7 / 4) ^ 5 * (7 / 2 - x) ^ 0)) / 21008750000000) by field end. apply Rdiv_lt_0_compat; [bernstein (x - 7 / 4) (7 / 2 - x)|lra]. }
  apply Rlt_le in H. clear H0. rename H into H0.
  destruct (Rle_or_lt x (139 / 20)) as [H|H].
  { match goal with |- 0 < ?p => replace p with ((9559028675620000 * ((x - 7 / 2) ^ 0 * (139 / 20 - x) ^ 5) + 72119969958230000 * ((x - 7 / 2) ^ 1 * (139 / 20 - x) ^ 4) + 209653493998990000 * ((x - 7 / 2) ^ 2 * (139 / 20 - x) ^ 3) + 290824800394069000 * ((x - 7 / 2) ^ 3 * (139 / 20 - x) ^ 2) + 190585733283402650 * ((x - 7 / 2) ^ 4 * (139 / 20 - x) ^ 1) + 47069522331892411 * ((x - 7 / 2) ^ 5 * (139 / 20 - x) ^ 0)) / 17000340750000000) by field end. apply Rdiv_lt_0_compat; [bernstein (x - 7 / 2) (139 / 20 - x)|lra]. }
  apply Rlt_le in H. clear H0. rename H into H0.
  match goal with |- 0 < ?p => replace p with ((1082599013633525453 * ((x - 139 / 20) ^ 0 * (139 / 10 - x) ^ 5) + 7486962099591713030 * ((x - 139 / 20) ^ 1 * (139 / 10 - x) ^ 4) + 19045049407366136120 * ((x - 139 / 20) ^ 2 * (139 / 10 - x) ^ 3) + 21159400646691580240 * ((x - 139 / 20) ^ 3 * (139 / 10 - x) ^ 2) + 9071568106354308240 * ((x - 139 / 20) ^ 4 * (139 / 10 - x) ^ 1) + 717701890570630496 * ((x - 139 / 20) ^ 5 * (139 / 10 - x) ^ 0)) / 12972211174750000000) by field end. apply Rdiv_lt_0_compat; [bernstein (x - 139 / 20) (139 / 10 - x)|lra].
Qed.
Lemma fd2_den_pos x : 0 <= x <= 139 / 10 -> 0 < fd2_den x.
Proof.
  unfold fd2_den. intros [H0 HX].
  match goal with |- 0 < ?p => replace p with ((799684540000 * ((x - 0) ^ 0 * (139 / 10 - x) ^ 4) + 22731976398200 * ((x - 0) ^ 1 * (139 / 10 - x) ^ 3) + 131518947061460 * ((x - 0) ^ 2 * (139 / 10 - x) ^ 2) + 483607322218331 * ((x - 0) ^ 3 * (139 / 10 - x) ^ 1) + 719626015071 * ((x - 0) ^ 4 * (139 / 10 - x) ^ 0)) / 373301041000000) by field end. apply Rdiv_lt_0_compat; [bernstein (x - 0) (139 / 10 - x)|lra].
Qed.
Lemma fd4_num_pos x : 0 <= x <= 139 / 10 -> 0 < fd4_num x - 2 * fd4_den x.
Proof.
  unfold fd4_num, fd4_den. intros [H0 HX].
  destruct (Rle_or_lt x (9 / 10)) as [H|H].
  { match goal with |- 0 < ?p => replace p with ((96529505000000000 * ((x - 0) ^ 0 * (9 / 10 - x) ^ 8) + 797349592750000000 * ((x - 0) ^ 1 * (9 / 10 - x) ^ 7) + 2210468587925000000 * ((x - 0) ^ 2 * (9 / 10 - x) ^ 6) + 3081267243707500000 * ((x - 0) ^ 3 * (9 / 10 - x) ^ 5) + 2517934136579000000 * ((x - 0) ^ 4 * (9 / 10 - x) ^ 4) + 1357547879415025000 * ((x - 0) ^ 5 * (9 / 10 - x) ^ 3) + 565553953970532500 * ((x - 0) ^ 6 * (9 / 10 - x) ^ 2) + 189610032297381250 * ((x - 0) ^ 7 * (9 / 10 - x) ^ 1) + 35169760781880107 * ((x - 0) ^ 8 * (9 / 10 - x) ^ 0)) / 10761680250000000) by field end. apply Rdiv_lt_0_compat; [bernstein (x - 0) (9 / 10 - x)|lra]. }
  apply Rlt_le in H. clear H0. rename H into H0.
  destruct (Rle_or_lt x (7 / 4)) as [H|H].
  { match goal with |- 0 < ?p => replace p with ((9003458760161307392 * ((x - 9 / 10) ^ 0 * (7 / 4 - x) ^ 8) + 94210310682609048320 * ((x - 9 / 10) ^ 1 * (7 / 4 - x) ^ 7) + 458304871504101654400 * ((x - 9 / 10) ^ 2 * (7 / 4 - x) ^ 6) + 1280668312658325656000 * ((x - 9 / 10) ^ 3 * (7 / 4 - x) ^ 5) + 2203838088751507400000 * ((x - 9 / 10) ^ 4 * (7 / 4 - x) ^ 4) + 2392992198891352650000 * ((x - 9 / 10) ^ 5 * (7 / 4 - x) ^ 3) + 1611660793454212125000 * ((x - 9 / 10) ^ 6 * (7 / 4 - x) ^ 2) + 620661309543950312500 * ((x - 9 / 10) ^ 7 * (7 / 4 - x) ^ 1) + 105705667031881640625 * ((x - 9 / 10) ^ 8 * (7 / 4 - x) ^ 0)) / 1743939360250000000) by field end. apply Rdiv_lt_0_compat; [bernstein (x - 9 / 10) (7 / 4 - x)|lra]. }
  apply Rlt_le in H. clear H0. rename H into H0.
  destruct (Rle_or_lt x (7 / 2)) as [H|H].
  { match goal with |- 0 < ?p => replace p with ((270606507601617 * ((x - 7 / 4) ^ 0 * (7 / 2 - x) ^ 8) + 3350650225125572 * ((x - 7 / 4) ^ 1 * (7 / 2 - x) ^ 7) + 18338518815971704 * ((x - 7 / 4) ^ 2 * (7 / 2 - x) ^ 6) + 58454079034337616 * ((x - 7 / 4) ^ 3 * (7 / 2 - x) ^ 5) + 119664354010781440 * ((x - 7 / 4) ^ 4 * (7 / 2 - x) ^ 4) + 162020992901686464 * ((x - 7 / 4) ^ 5 * (7 / 2 - x) ^ 3) + 142313133004814464 * ((x - 7 / 4) ^ 6 * (7 / 2 - x) ^ 2) + 74400903300900608 * ((x - 7 / 4) ^ 7 * (7 / 2 - x) ^ 1) + 17624102946602752 * ((x - 7 / 4) ^ 8 * (7 / 2 - x) ^ 0)) / 1441200250000000) by field end. apply Rdiv_lt_0_compat; [bernstein (x - 7 / 4) (7 / 2 - x)|lra]. }
  apply Rlt_le in H. clear H0. rename H into H0.
  destruct (Rle_or_lt x (139 / 20)) as [H|H].
  { match goal with |- 0 < ?p => replace p with ((6884415213516700000000 * ((x - 7 / 2) ^ 0 * (139 / 20 - x) ^ 8) + 106357046024680220000000 * ((x - 7 / 2) ^ 1 * (139 / 20 - x) ^ 7) + 726298144387063954000000 * ((x - 7 / 2) ^ 2 * (139 / 20 - x) ^ 6) + 2858166392159485916600000 * ((x - 7 / 2) ^ 3 * (139 / 20 - x) ^ 5) + 7073060337471173994400000 * ((x - 7 / 2) ^ 4 * (139 / 20 - x) ^ 4) + 11238933952129802339714000 * ((x - 7 / 2) ^ 5 * (139 / 20 - x) ^ 3) + 11155548921665200927041400 * ((x - 7 / 2) ^ 6 * (139 / 20 - x) ^ 2) + 6290377523011841777404580 * ((x - 7 / 2) ^ 7 * (139 / 20 - x) ^ 1) + 1530625071189841437268177 * ((x - 7 / 2) ^ 8 * (139 / 20 - x) ^ 0)) / 128449593607160250000000) by field end. apply Rdiv_lt_0_compat; [bernstein (x - 7 / 2) (139 / 20 - x)|lra]. }
  apply Rlt_le in H. clear H0. rename H into H0.
  match goal with |- 0 < ?p => replace p with ((1530625071189841437268177 * ((x - 139 / 20) ^ 0 * (139 / 10 - x) ^ 8) + 24240545547264494848623332 * ((x - 139 / 20) ^ 1 * (139 / 10 - x) ^ 7) + 167328620528684973578720824 * ((x - 139 / 20) ^ 2 * (139 / 10 - x) ^ 6) + 656757898400174124458233296 * ((x - 139 / 20) ^ 3 * (139 / 10 - x) ^ 5) + 1600644441757833997117258240 * ((x - 139 / 20) ^ 4 * (139 / 10 - x) ^ 4) + 2475515864679244228919573184 * ((x - 139 / 20) ^ 5 * (139 / 10 - x) ^ 3) + 2366148850658579650359213184 * ((x - 139 / 20) ^ 6 * (139 / 10 - x) ^ 2) + 1273085852612435040189333248 * ((x - 139 / 20) ^ 7 * (139 / 10 - x) ^ 1) + 293563023405704242730733312 * ((x - 139 / 20) ^ 8 * (139 / 10 - x) ^ 0)) / 34838416802920920250000000) by field end. apply Rdiv_lt_0_compat; [bernstein (x - 139 / 20) (139 / 10 - x)|lra].
Qed.
Lemma fd4_den_pos x : 0 <= x <= 139 / 10 -> 0 < fd4_den x.
Proof.
  unfold fd4_den. intros [H0 HX].
  destruct (Rle_or_lt x (9 / 10)) as [H|H].
  { match goal with |- 0 < ?p => replace p with ((319178480000 * ((x - 0) ^ 0 * (9 / 10 - x) ^ 6) + 925760427000 * ((x - 0) ^ 1 * (9 / 10 - x) ^ 5) + 1143952884000 * ((x - 0) ^ 2 * (9 / 10 - x) ^ 4) + 760905681160 * ((x - 0) ^ 3 * (9 / 10 - x) ^ 3) + 338565165252 * ((x - 0) ^ 4 * (9 / 10 - x) ^ 2) + 132359283999 * ((x - 0) ^ 5 * (9 / 10 - x) ^ 1) + 35043562907 * ((x - 0) ^ 6 * (9 / 10 - x) ^ 0)) / 17714700000) by field end. apply Rdiv_lt_0_compat; [bernstein (x - 0) (9 / 10 - x)|lra]. }
  apply Rlt_le in H. clear H0. rename H into H0.
  destruct (Rle_or_lt x (7 / 4)) as [H|H].
  { match goal with |- 0 < ?p => replace p with ((3364182039072 * ((x - 9 / 10) ^ 0 * (7 / 4 - x) ^ 6) + 27248215373264 * ((x - 9 / 10) ^ 1 * (7 / 4 - x) ^ 5) + 103111683341312 * ((x - 9 / 10) ^ 2 * (7 / 4 - x) ^ 4) + 204873272008520 * ((x - 9 / 10) ^ 3 * (7 / 4 - x) ^ 3) + 225201319565650 * ((x - 9 / 10) ^ 4 * (7 / 4 - x) ^ 2) + 130886222993625 * ((x - 9 / 10) ^ 5 * (7 / 4 - x) ^ 1) + 32537403879375 * ((x - 9 / 10) ^ 6 * (7 / 4 - x) ^ 0)) / 1206878450000) by field end. apply Rdiv_lt_0_compat; [bernstein (x - 9 / 10) (7 / 4 - x)|lra]. }
  apply Rlt_le in H. clear H0. rename H into H0.
  destruct (Rle_or_lt x (7 / 2)) as [H|H].
  { match goal with |- 0 < ?p => replace p with ((52059846207 * ((x - 7 / 4) ^ 0 * (7 / 2 - x) ^ 6) + 524296678173 * ((x - 7 / 4) ^ 1 * (7 / 2 - x) ^ 5) + 2239579729126 * ((x - 7 / 4) ^ 2 * (7 / 2 - x) ^ 4) + 5284598067240 * ((x - 7 / 4) ^ 3 * (7 / 2 - x) ^ 3) + 7421668278176 * ((x - 7 / 4) ^ 4 * (7 / 2 - x) ^ 2) + 5991123023888 * ((x - 7 / 4) ^ 5 * (7 / 2 - x) ^ 1) + 2233771165792 * ((x - 7 / 4) ^ 6 * (7 / 2 - x) ^ 0)) / 147061250000) by field end. apply Rdiv_lt_0_compat; [bernstein (x - 7 / 4) (7 / 2 - x)|lra]. }
  apply Rlt_le in H. clear H0. rename H into H0.
  destruct (Rle_or_lt x (139 / 20)) as [H|H].
  { match goal with |- 0 < ?p => replace p with ((1396106978620000 * ((x - 7 / 2) ^ 0 * (139 / 20 - x) ^ 6) + 17508673550106000 * ((x - 7 / 2) ^ 1 * (139 / 20 - x) ^ 5) + 93255154343565600 * ((x - 7 / 2) ^ 2 * (139 / 20 - x) ^ 4) + 269751088131161960 * ((x - 7 / 2) ^ 3 * (139 / 20 - x) ^ 3) + 446455717785941382 * ((x - 7 / 2) ^ 4 * (139 / 20 - x) ^ 2) + 400492883594894709 * ((x - 7 / 2) ^ 5 * (139 / 20 - x) ^ 1) + 152041574322085687 * ((x - 7 / 2) ^ 6 * (139 / 20 - x) ^ 0)) / 5395908154050000) by field end. apply Rdiv_lt_0_compat; [bernstein (x - 7 / 2) (139 / 20 - x)|lra]. }
  apply Rlt_le in H. clear H0. rename H into H0.
  match goal with |- 0 < ?p => replace p with ((152041574322085687 * ((x - 139 / 20) ^ 0 * (139 / 10 - x) ^ 6) + 1943179332380761925 * ((x - 139 / 20) ^ 1 * (139 / 10 - x) ^ 5) + 10375891565411661782 * ((x - 139 / 20) ^ 2 * (139 / 10 - x) ^ 4) + 29625092746172254056 * ((x - 139 / 20) ^ 3 * (139 / 10 - x) ^ 3) + 47697778585483926688 * ((x - 139 / 20) ^ 4 * (139 / 10 - x) ^ 2) + 41056716722432677008 * ((x - 139 / 20) ^ 5 * (139 / 10 - x) ^ 1) + 14759904546426068832 * ((x - 139 / 20) ^ 6 * (139 / 10 - x) ^ 0)) / 360627470658050000) by field end. apply Rdiv_lt_0_compat; [bernstein (x - 139 / 20) (139 / 10 - x)|lra].
Qed.
Lemma moments_pos x : 0 <= x <= 10 -> 0 < 25 / 21 * (fd4_num x * fd2_den x) - 2 * (fd4_den x * fd2_den x) - x * fd2_num x * fd4_den x.
Proof.
  unfold fd2_num, fd2_den, fd4_num, fd4_den. intros [H0 HX].
  destruct (Rle_or_lt x (5 / 4)) as [H|H].
  { match goal with |- 0 < ?p => replace p with ((145176664035253821636608000 * ((x - 0) ^ 0 * (5 / 4 - x) ^ 12) + 1813734516883323343778873344 * ((x - 0) ^ 1 * (5 / 4 - x) ^ 11) + 9351491735691271607345905664 * ((x - 0) ^ 2 * (5 / 4 - x) ^ 10) + 26390663054829157068543262720 * ((x - 0) ^ 3 * (5 / 4 - x) ^ 9) + 45791382469417424378090127360 * ((x - 0) ^ 4 * (5 / 4 - x) ^ 8) + 52625282957064254266867333120 * ((x - 0) ^ 5 * (5 / 4 - x) ^ 7) + 44451458912992687949071337728 * ((x - 0) ^ 6 * (5 / 4 - x) ^ 6) + 33927103705854895396822338688 * ((x - 0) ^ 7 * (5 / 4 - x) ^ 5) + 27479930444161154063682528320 * ((x - 0) ^ 8 * (5 / 4 - x) ^ 4) + 20137875153687155863569473360 * ((x - 0) ^ 9 * (5 / 4 - x) ^ 3) + 10439581353168615843747172020 * ((x - 0) ^ 10 * (5 / 4 - x) ^ 2) + 3201331284275678064402735459 * ((x - 0) ^ 11 * (5 / 4 - x) ^ 1) + 436970485454716496660337599 * ((x - 0) ^ 12 * (5 / 4 - x) ^ 0)) / 3204345703125000000000000) by field end. apply Rdiv_lt_0_compat; [bernstein (x - 0) (5 / 4 - x)|lra]. }
  apply Rlt_le in H. clear H0. rename H into H0.
  destruct (Rle_or_lt x (5 / 2)) as [H|H].
  { match goal with |- 0 < ?p => replace p with ((436970485454716496660337599 * ((x - 5 / 4) ^ 0 * (5 / 2 - x) ^ 12) + 7285960366637517855445366917 * ((x - 5 / 4) ^ 1 * (5 / 2 - x) ^ 11) + 55370501259148853545216118058 * ((x - 5 / 4) ^ 2 * (5 / 2 - x) ^ 10) + 253428923769337020964966340300 * ((x - 5 / 4) ^ 3 * (5 / 2 - x) ^ 9) + 779171770805602808932185949640 * ((x - 5 / 4) ^ 4 * (5 / 2 - x) ^ 8) + 1699446662700399046578531975328 * ((x - 5 / 4) ^ 5 * (5 / 2 - x) ^ 7) + 2703770381264344144573496885824 * ((x - 5 / 4) ^ 6 * (5 / 2 - x) ^ 6) + 3170108593803736308518124217216 * ((x - 5 / 4) ^ 7 * (5 / 2 - x) ^ 5) + 2725286383436075513344184064000 * ((x - 5 / 4) ^ 8 * (5 / 2 - x) ^ 4) + 1678894577417230979887434359040 * ((x - 5 / 4) ^ 9 * (5 / 2 - x) ^ 3) + 704722664908643373502977135104 * ((x - 5 / 4) ^ 10 * (5 / 2 - x) ^ 2) + 181175542698754741482279877632 * ((x - 5 / 4) ^ 11 * (5 / 2 - x) ^ 1) + 21581589989152865048311646208 * ((x - 5 / 4) ^ 12 * (5 / 2 - x) ^ 0)) / 3204345703125000000000000) by field end. apply Rdiv_lt_0_compat; [bernstein (x - 5 / 4) (5 / 2 - x)|lra]. }
  apply Rlt_le in H. clear H0. rename H into H0.
  destruct (Rle_or_lt x (5)) as [H|H].
  { match goal with |- 0 < ?p => replace p with ((10537885736891047386870921 * ((x - 5 / 2) ^ 0 * (5 - x) ^ 12) + 202434645611325028698564213 * ((x - 5 / 2) ^ 1 * (5 - x) ^ 11) + 1797250632360137888124294172 * ((x - 5 / 2) ^ 2 * (5 - x) ^ 10) + 9749228727295010400767520000 * ((x - 5 / 2) ^ 3 * (5 - x) ^ 9) + 35963786979510233953899329760 * ((x - 5 / 2) ^ 4 * (5 - x) ^ 8) + 94941142121711021522033419112 * ((x - 5 / 2) ^ 5 * (5 - x) ^ 7) + 183650230567155078310789008536 * ((x - 5 / 2) ^ 6 * (5 - x) ^ 6) + 261800382047518434130123024544 * ((x - 5 / 2) ^ 7 * (5 - x) ^ 5) + 272383336873565587512988736800 * ((x - 5 / 2) ^ 8 * (5 - x) ^ 4) + 201216812415131263077366751360 * ((x - 5 / 2) ^ 9 * (5 - x) ^ 3) + 99906556777302111543319098816 * ((x - 5 / 2) ^ 10 * (5 - x) ^ 2) + 29845720785447290686145326848 * ((x - 5 / 2) ^ 11 * (5 - x) ^ 1) + 4044023811737624901127267072 * ((x - 5 / 2) ^ 12 * (5 - x) ^ 0)) / 6408691406250000000000000) by field end. apply Rdiv_lt_0_compat; [bernstein (x - 5 / 2) (5 - x)|lra]. }
  apply Rlt_le in H. clear H0. rename H into H0.
  match goal with |- 0 < ?p => replace p with ((15796968014600097270028387 * ((x - 5) ^ 0 * (10 - x) ^ 12) + 335521154889296543235511566 * ((x - 5) ^ 1 * (10 - x) ^ 11) + 3249839060319673641239380719 * ((x - 5) ^ 2 * (10 - x) ^ 10) + 18958164758140146148404104200 * ((x - 5) ^ 3 * (10 - x) ^ 9) + 74076900081339170596939268020 * ((x - 5) ^ 4 * (10 - x) ^ 8) + 203894534021515255108299912464 * ((x - 5) ^ 5 * (10 - x) ^ 7) + 404517715059539565697842267152 * ((x - 5) ^ 6 * (10 - x) ^ 6) + 581307030642092616397488963788 * ((x - 5) ^ 7 * (10 - x) ^ 5) + 598454382085579253021573429925 * ((x - 5) ^ 8 * (10 - x) ^ 4) + 428445390799142007588366767970 * ((x - 5) ^ 9 * (10 - x) ^ 3) + 201130587749328846177352143577 * ((x - 5) ^ 10 * (10 - x) ^ 2) + 55031549329213355651562201636 * ((x - 5) ^ 11 * (10 - x) ^ 1) + 6527014255324693205140943844 * ((x - 5) ^ 12 * (10 - x) ^ 0)) / 102539062500000000000000000) by field end. apply Rdiv_lt_0_compat; [bernstein (x - 5) (10 - x)|lra].
Qed.
