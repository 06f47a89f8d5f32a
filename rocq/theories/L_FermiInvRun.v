(** The checks of L_FermiInv run on the ranges of the branches. *)
From Coq Require Import Reals List Arith ZArith QArith Qreals Lra Lia.
From Verif Require Import L_Poly L_TM L_FermiTables L_FermiInv.
Import ListNotations.
Open Scope R_scope.

Definition e6 : Q := 1 # 1000000.
Definition e7 : Q := 4 # 10000000.
Definition al1 : Q := -550848552 # 1000000000. Definition be1 : Q := 45211461 # 100000000.
Definition al2 : Q := -482411581 # 1000000000. Definition be2 : Q := 14063612 # 100000000.
Definition al3 : Q := -442839571 # 1000000000. Definition be3 : Q := 420121106 # 10000000000.
Definition al4 : Q := -416448071 # 1000000000. Definition be4 : Q := 121259929 # 10000000000.
Definition zmax : Q := 22197 # 10000. Definition xmin : Q := 797 # 1000.
Definition v1 : Q := 7072 # 10000. Definition v2 : Q := 61369 # 100000. Definition v3 : Q := 40337 # 100000. Definition v4 : Q := 26946 # 100000. Definition v5 : Q := 17868 # 100000.
Definition v2' : Q := 61368 # 100000. Definition v3' : Q := 40336 # 100000. Definition v4' : Q := 26945 # 100000. Definition v5' : Q := 17869 # 100000.
Lemma run0 z : 0 <= z <= Q2R zmax -> good0 e7 z.
Proof. replace 0 with (Q2R 0) by apply Q2R_0. apply (cover_range (chk0 e7) (good0 e7) 4 8); [apply chk0_ok|]. vm_compute. reflexivity. Qed.
Lemma rune x : Q2R xmin <= x <= Q2R 2 -> goode qr1_upper qr1_lower al1 be1 e6 x.
Proof. apply (cover_range (chke qr1_upper qr1_lower al1 be1 e6) (goode qr1_upper qr1_lower al1 be1 e6) 4 8); [intros c w; apply chke_ok; discriminate || reflexivity|]. vm_compute. reflexivity. Qed.
Lemma run1 v : Q2R v2' <= v <= Q2R v1 -> goodh qr1_upper qr1_lower al1 be1 e6 v.
Proof. apply (cover_range (chkh qr1_upper qr1_lower al1 be1 e6) (goodh qr1_upper qr1_lower al1 be1 e6) 4 8); [intros c w; apply chkh_ok; discriminate || reflexivity|]. vm_compute. reflexivity. Qed.
Lemma run2 v : Q2R v3' <= v <= Q2R v2 -> goodh qr2_upper qr2_lower al2 be2 e6 v.
Proof. apply (cover_range (chkh qr2_upper qr2_lower al2 be2 e6) (goodh qr2_upper qr2_lower al2 be2 e6) 5 8); [intros c w; apply chkh_ok; discriminate || reflexivity|]. vm_compute. reflexivity. Qed.
Lemma run3 v : Q2R v4' <= v <= Q2R v3 -> goodh qr3_upper qr3_lower al3 be3 e6 v.
Proof. apply (cover_range (chkh qr3_upper qr3_lower al3 be3 e6) (goodh qr3_upper qr3_lower al3 be3 e6) 4 8); [intros c w; apply chkh_ok; discriminate || reflexivity|]. vm_compute. reflexivity. Qed.
Lemma run4 v : Q2R v5 <= v <= Q2R v4 -> goodh qr4_upper qr4_lower al4 be4 e6 v.
Proof. apply (cover_range (chkh qr4_upper qr4_lower al4 be4 e6) (goodh qr4_upper qr4_lower al4 be4 e6) 3 8); [intros c w; apply chkh_ok; discriminate || reflexivity|]. vm_compute. reflexivity. Qed.
Definition smax : Q := 1021 # 1000000.
Lemma runS s : 0 <= s <= Q2R smax -> goodS e6 s.
Proof. replace 0 with (Q2R 0) by apply Q2R_0. apply (cover_range (chkS e6) (goodS e6) 2 8); [apply chkS_ok|]. vm_compute. reflexivity. Qed.
