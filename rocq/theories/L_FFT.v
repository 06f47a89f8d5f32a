(** The fast Fourier transform is the discrete Fourier transform. *)
From Coq Require Import Reals Lra Psatz List Lia Arith Bool FunctionalExtensionality.
From Coquelicot Require Import Coquelicot.
From Verif Require Import M_HNC L_HNC M_FFT.
Import ListNotations.
Open Scope R_scope.

(** ** Complex arrays *)
Definition cx (y : nat -> R) (a : nat) : C := (y (2 * a)%nat, y (2 * a + 1)%nat).
Lemma upd_same y i v : upd y i v i = v.
Proof. unfold upd. now rewrite Nat.eqb_refl. Qed.
Lemma upd_other y i v j : j <> i -> upd y i v j = y j.
Proof. intros H. unfold upd. apply Nat.eqb_neq in H. now rewrite H. Qed.
Lemma range_1 b : range 1 (2 * b) 2 = map (fun t => (1 + 2 * t)%nat) (seq 0 b).
Proof.
  unfold range. f_equal. destruct b as [|b]; [reflexivity|]. f_equal. replace (2 * S b - 1 + 2 - 1)%nat with (S b * 2)%nat by lia. apply Nat.div_mul. lia.
Qed.
Lemma fold_map {A B S} (f : S -> B -> S) (g : A -> B) l : forall s, fold_left f (map g l) s = fold_left (fun s a => f s (g a)) l s.
Proof. induction l as [|a l IH]; intros s; [reflexivity|]. cbn. apply IH. Qed.
Lemma fold_seq_S {S} (f : S -> nat -> S) n s : fold_left f (seq 0 (Datatypes.S n)) s = f (fold_left f (seq 0 n) s) n.
Proof. rewrite seq_S, fold_left_app. reflexivity. Qed.

(** ** Bit reversal *)
Fixpoint rv (p a : nat) : nat := match p with O => O | S q => (Nat.modulo a 2 * 2 ^ q + rv q (Nat.div a 2))%nat end.
Lemma rv_even p s : rv (S p) (2 * s) = rv p s.
Proof. cbn [rv]. rewrite (Nat.mul_comm 2 s), Nat.mod_mul, Nat.div_mul by lia. lia. Qed.
Lemma rv_odd p s : rv (S p) (2 * s + 1) = (2 ^ p + rv p s)%nat.
Proof.
  cbn [rv]. replace (2 * s + 1)%nat with (1 + s * 2)%nat by lia. rewrite Nat.mod_add, Nat.div_add by lia. change (Nat.modulo 1 2) with 1%nat. change (Nat.div 1 2) with O. rewrite Nat.add_0_l. lia.
Qed.
Lemma parity a : exists s, a = (2 * s)%nat \/ a = (2 * s + 1)%nat.
Proof. destruct (Nat.Even_or_Odd a) as [[s H]|[s H]]; exists s; [left|right]; exact H. Qed.
Lemma rv_lt p : forall a, (rv p a < 2 ^ p)%nat.
Proof.
  induction p as [|p IH]; intros a; [cbn; lia|]. destruct (parity a) as [s [->| ->]]; [rewrite rv_even|rewrite rv_odd]; pose proof (IH s); cbn [Nat.pow]; lia.
Qed.
Lemma rv_high p : forall h l, (h < 2)%nat -> (l < 2 ^ p)%nat -> rv (S p) (h * 2 ^ p + l) = (2 * rv p l + h)%nat.
Proof.
  induction p as [|p IH]; intros h l Hh Hl.
  - cbn in Hl. assert (l = O) by lia. subst. destruct h as [|[|h]]; cbn; lia.
  - cbn [Nat.pow] in Hl. destruct (parity l) as [s [->| ->]].
    + replace (h * 2 ^ S p + 2 * s)%nat with (2 * (h * 2 ^ p + s))%nat by (cbn [Nat.pow]; lia). rewrite !rv_even. apply IH; lia.
    + replace (h * 2 ^ S p + (2 * s + 1))%nat with (2 * (h * 2 ^ p + s) + 1)%nat by (cbn [Nat.pow]; lia). rewrite !rv_odd, IH by lia. cbn [Nat.pow]. lia.
Qed.
Lemma rv_rv p : forall a, (a < 2 ^ p)%nat -> rv p (rv p a) = a.
Proof.
  induction p as [|p IH]; intros a Ha; [cbn in *; lia|]. cbn [Nat.pow] in Ha. pose proof (rv_lt p) as L. destruct (parity a) as [s [->| ->]].
  - rewrite rv_even. replace (rv p s) with (0 * 2 ^ p + rv p s)%nat by lia. rewrite rv_high by (try lia; apply L). rewrite IH by lia. lia.
  - rewrite rv_odd. replace (2 ^ p + rv p s)%nat with (1 * 2 ^ p + rv p s)%nat by lia. rewrite rv_high by (try lia; apply L). rewrite IH by lia. lia.
Qed.
Lemma carry_spec q : forall fuel a, (q <= fuel)%nat -> (S a < 2 ^ q)%nat -> let jm := carry fuel (2 ^ q) (2 * rv q a + 1) in (fst jm + snd jm = 2 * rv q (S a) + 1)%nat.
Proof.
  induction q as [|q IH]; intros fuel a Hf Ha; [cbn in Ha; lia|]. cbv zeta. destruct fuel as [|fuel]; [lia|]. cbn [Nat.pow] in Ha. cbn [carry].
  replace (Nat.leb 2 (2 ^ S q)) with true by (symmetry; apply Nat.leb_le; cbn [Nat.pow]; pose proof (Nat.pow_nonzero 2 q ltac:(lia)); lia). cbn [andb].
  pose proof (rv_lt q) as L. destruct (parity a) as [s [->| ->]].
  - replace (S (2 * s)) with (2 * s + 1)%nat by lia. rewrite rv_even, rv_odd. replace (Nat.ltb (2 ^ S q) (2 * rv q s + 1)) with false by (symmetry; apply Nat.ltb_ge; cbn [Nat.pow]; pose proof (L s); lia). cbn [fst snd Nat.pow]. lia.
  - replace (S (2 * s + 1)) with (2 * S s)%nat by lia. rewrite rv_even, rv_odd. replace (Nat.ltb (2 ^ S q) (2 * (2 ^ q + rv q s) + 1)) with true by (symmetry; apply Nat.ltb_lt; cbn [Nat.pow]; lia).
    replace (2 ^ S q / 2)%nat with (2 ^ q)%nat by (cbn [Nat.pow]; rewrite Nat.mul_comm, Nat.div_mul by lia; reflexivity). replace (2 * (2 ^ q + rv q s) + 1 - 2 ^ S q)%nat with (2 * rv q s + 1)%nat by (cbn [Nat.pow]; lia). apply IH; lia.
Qed.
Lemma swap_cx y A B c : A <> B -> cx (swap y (2 * A + 1) (2 * B + 1)) c = if Nat.eqb c A then cx y B else if Nat.eqb c B then cx y A else cx y c.
Proof.
  intros H. unfold swap, cx. cbv zeta. replace (2 * A + 1 - 1)%nat with (2 * A)%nat by lia. replace (2 * B + 1 - 1)%nat with (2 * B)%nat by lia.
  destruct (Nat.eqb_spec c A) as [->|HA]; [|destruct (Nat.eqb_spec c B) as [->|HB]].
  - rewrite (upd_other _ _ _ (2 * A)%nat) by lia. rewrite (upd_other _ _ _ (2 * A)%nat) by lia. rewrite upd_same. rewrite upd_same. rewrite !upd_other by lia. reflexivity.
  - rewrite (upd_other _ _ _ (2 * B)%nat) by lia. rewrite (upd_other _ _ _ (2 * B)%nat) by lia. rewrite (upd_other _ _ _ (2 * B)%nat) by lia. rewrite upd_same. rewrite (upd_other _ (2 * A + 1)%nat) by lia. rewrite upd_same. rewrite !upd_other by lia. reflexivity.
  - rewrite !upd_other by lia. reflexivity.
Qed.
Lemma bit_reverse_spec p y c : (c < 2 ^ p)%nat -> cx (bit_reverse (2 ^ p) y) c = cx y (rv p c).
Proof.
  intros Hc. unfold bit_reverse. rewrite range_1, fold_map.
  enough (forall A, (A <= 2 ^ p)%nat -> let st := fold_left (fun s a => rev_step (2 ^ p) s (1 + 2 * a)) (seq 0 A) (y, 1%nat) in
    ((A < 2 ^ p)%nat -> snd st = (2 * rv p A + 1)%nat) /\ forall c, (c < 2 ^ p)%nat -> cx (fst st) c = if Nat.ltb (Nat.min c (rv p c)) A then cx y (rv p c) else cx y c) as I.
  { destruct (I (2 ^ p)%nat (le_n _)) as [_ E]. rewrite E by exact Hc. replace (Nat.ltb (Nat.min c (rv p c)) (2 ^ p)) with true by (symmetry; apply Nat.ltb_lt; lia). reflexivity. }
  clear c Hc. induction A as [|A IH]; intros HA.
  - cbn [seq fold_left fst snd]. split; [|intros c _; reflexivity]. intros _. assert (forall q, rv q 0 = O) as Z by (induction q as [|q IHq]; [reflexivity|]; change O with (2 * 0)%nat; now rewrite rv_even). now rewrite Z.
  - rewrite fold_seq_S. destruct (IH ltac:(lia)) as [Hj Hy]. clear IH. set (st := fold_left _ _ _) in *. specialize (Hj ltac:(lia)). unfold rev_step. cbv zeta. cbn [fst snd]. rewrite Hj. replace (1 + 2 * A)%nat with (2 * A + 1)%nat by lia. split.
    + intros HS. apply carry_spec; [|exact HS]. apply Nat.lt_le_incl. apply Nat.pow_gt_lin_r. lia.
    + intros c Hc. pose proof (rv_rv p c Hc) as RR. pose proof (rv_rv p A ltac:(lia)) as RA. pose proof (rv_lt p c). pose proof (rv_lt p A).
      assert (cx (fst st) c = if Nat.ltb (Nat.min c (rv p c)) A then cx y (rv p c) else cx y c) as Ec by (now apply Hy).
      destruct (Nat.ltb_spec (2 * A + 1) (2 * rv p A + 1)) as [L|L].
      * rewrite swap_cx by lia. destruct (Nat.eqb_spec c A) as [->|NA]; [|destruct (Nat.eqb_spec c (rv p A)) as [->|NB]].
        -- rewrite Hy by lia. rewrite RA. rewrite (proj2 (Nat.ltb_ge _ _)) by lia. rewrite (proj2 (Nat.ltb_lt _ _)) by lia. reflexivity.
        -- rewrite Hy by lia. rewrite RA. rewrite (proj2 (Nat.ltb_ge _ _)) by lia. rewrite (proj2 (Nat.ltb_lt _ _)) by lia. reflexivity.
        -- rewrite Ec. destruct (Nat.ltb_spec (Nat.min c (rv p c)) A) as [M|M]; destruct (Nat.ltb_spec (Nat.min c (rv p c)) (S A)) as [M'|M']; try reflexivity; try lia.
           exfalso. assert (Nat.min c (rv p c) = A) as E by lia. destruct (Nat.min_dec c (rv p c)) as [X|X]; rewrite X in E; [now apply NA|]. apply NB. now rewrite <- E.
      * rewrite Ec. destruct (Nat.ltb_spec (Nat.min c (rv p c)) A) as [M|M]; destruct (Nat.ltb_spec (Nat.min c (rv p c)) (S A)) as [M'|M']; try reflexivity; try lia.
        assert (Nat.min c (rv p c) = A) as E by lia. destruct (Nat.min_dec c (rv p c)) as [X|X]; rewrite X in E.
        -- subst A. assert (rv p c = c) as -> by lia. reflexivity.
        -- subst A. assert (rv p c = c) as -> by lia. reflexivity.
Qed.

(** ** One stage *)
Definition cbut (w : C) (h : nat) (z : nat -> C) (a : nat) : nat -> C :=
  fun c => if Nat.eqb c (a + h) then Cminus (z a) (Cmult w (z (a + h)%nat)) else if Nat.eqb c a then Cplus (z a) (Cmult w (z (a + h)%nat)) else z c.
Lemma but_cx wr wi h y a : (0 < h)%nat -> cx (butterfly wr wi (2 * h) y (2 * a + 1)) = cbut (wr, wi) h (cx y) a.
Proof.
  intros Hh. extensionality c. unfold butterfly, cbut, cx. cbv zeta. replace (2 * a + 1 + 2 * h - 1)%nat with (2 * (a + h))%nat by lia. replace (2 * a + 1 + 2 * h)%nat with (2 * (a + h) + 1)%nat by lia. replace (2 * a + 1 - 1)%nat with (2 * a)%nat by lia.
  destruct (Nat.eqb_spec c (a + h)) as [->|H1]; [|destruct (Nat.eqb_spec c a) as [->|H2]].
  - rewrite (upd_other _ (2 * a + 1)%nat) by lia. rewrite (upd_other _ (2 * a)%nat) by lia. rewrite (upd_other _ (2 * (a + h) + 1)%nat) by lia. rewrite upd_same. rewrite (upd_other _ (2 * a + 1)%nat) by lia. rewrite (upd_other _ (2 * a)%nat) by lia. rewrite upd_same. rewrite (upd_other _ (2 * (a + h))%nat) by lia.
    unfold Cminus, Cplus, Copp, Cmult. cbn [fst snd]. f_equal; ring.
  - rewrite (upd_other _ (2 * a + 1)%nat) by lia. rewrite upd_same. rewrite upd_same. rewrite !upd_other by lia. unfold Cplus, Cmult. cbn [fst snd]. f_equal; ring.
  - rewrite !upd_other by lia. reflexivity.
Qed.
Lemma split_unique H s r s' r' : (r < H)%nat -> (r' < H)%nat -> (H * s + r = H * s' + r')%nat -> s = s' /\ r = r'.
Proof. intros A B E. destruct (Nat.div_mod_unique H s s' r r' A B E) as [X Y]. split; assumption. Qed.
Definition inner (w : C) (h t n : nat) (z : nat -> C) : nat -> C := fold_left (fun z s => cbut w h z (2 * h * s + t)) (seq 0 n) z.
Lemma inner_spec w h t n z s r : (t < h)%nat -> (r < 2 * h)%nat -> inner w h t n z (2 * h * s + r)%nat =
  if Nat.ltb s n then (if Nat.eqb r t then Cplus (z (2 * h * s + t)%nat) (Cmult w (z (2 * h * s + (h + t))%nat))
                       else if Nat.eqb r (h + t) then Cminus (z (2 * h * s + t)%nat) (Cmult w (z (2 * h * s + (h + t))%nat)) else z (2 * h * s + r)%nat)
  else z (2 * h * s + r)%nat.
Proof.
  intros Ht. revert s r. induction n as [|n IH]; intros s r Hr; [reflexivity|]. unfold inner in *. rewrite fold_seq_S. unfold cbut at 1. replace (2 * h * n + t + h)%nat with (2 * h * n + (h + t))%nat by lia.
  destruct (Nat.eqb_spec (2 * h * s + r) (2 * h * n + (h + t))) as [E|N1]; [|destruct (Nat.eqb_spec (2 * h * s + r) (2 * h * n + t)) as [E|N2]].
  - destruct (split_unique (2 * h) s r n (h + t)) as [-> ->]; [lia|lia|exact E|]. rewrite !IH by lia. rewrite !Nat.ltb_irrefl, (proj2 (Nat.ltb_lt _ _)) by lia. rewrite (proj2 (Nat.eqb_neq _ _)) by lia. rewrite Nat.eqb_refl. reflexivity.
  - destruct (split_unique (2 * h) s r n t) as [-> ->]; [lia|lia|exact E|]. rewrite !IH by lia. rewrite !Nat.ltb_irrefl, (proj2 (Nat.ltb_lt _ _)) by lia. rewrite Nat.eqb_refl. reflexivity.
  - rewrite IH by lia. destruct (Nat.ltb_spec s n) as [L|L]; destruct (Nat.ltb_spec s (S n)) as [L'|L']; try reflexivity; try lia. assert (s = n) by lia. subst.
    rewrite (proj2 (Nat.eqb_neq _ _)) by (intros ->; now apply N2). rewrite (proj2 (Nat.eqb_neq _ _)) by (intros ->; now apply N1). reflexivity.
Qed.
Fixpoint cpow (w : C) (n : nat) : C := match n with O => RtoC 1 | S m => Cmult (cpow w m) w end.
Lemma cpow_cis th n : cpow (cis th) n = cis (INR n * th).
Proof.
  induction n as [|n IH]; [cbn; unfold cis; rewrite Rmult_0_l, cos_0, sin_0; reflexivity|]. cbn [cpow]. rewrite IH, cis_plus. f_equal. rewrite S_INR. ring.
Qed.
Definition outer (w : C) (h n T : nat) (z : nat -> C) : nat -> C := fold_left (fun z t => inner (cpow w t) h t n z) (seq 0 T) z.
Lemma outer_spec w h n T z s t : (T <= h)%nat -> (s < n)%nat -> (t < h)%nat ->
  outer w h n T z (2 * h * s + t)%nat = (if Nat.ltb t T then Cplus (z (2 * h * s + t)%nat) (Cmult (cpow w t) (z (2 * h * s + (h + t))%nat)) else z (2 * h * s + t)%nat) /\
  outer w h n T z (2 * h * s + (h + t))%nat = (if Nat.ltb t T then Cminus (z (2 * h * s + t)%nat) (Cmult (cpow w t) (z (2 * h * s + (h + t))%nat)) else z (2 * h * s + (h + t))%nat).
Proof.
  intros HT Hs. revert t. induction T as [|T IH]; intros t Ht; [split; reflexivity|]. specialize (IH ltac:(lia)). unfold outer in *. rewrite fold_seq_S. set (y := fold_left _ _ _) in *.
  rewrite !inner_spec by lia. rewrite (proj2 (Nat.ltb_lt s n)) by lia. destruct (Nat.eqb_spec t T) as [->|N].
  - destruct (IH T ltac:(lia)) as [E1 E2]. rewrite Nat.ltb_irrefl in E1, E2. rewrite E1, E2. rewrite (proj2 (Nat.ltb_lt T (S T))) by lia. rewrite (proj2 (Nat.eqb_neq (h + T) T)) by lia. rewrite Nat.eqb_refl. split; reflexivity.
  - destruct (IH t Ht) as [E1 E2]. rewrite (proj2 (Nat.eqb_neq t (h + T))) by lia. rewrite (proj2 (Nat.eqb_neq (h + t) T)) by lia. rewrite (proj2 (Nat.eqb_neq (h + t) (h + T))) by lia. rewrite E1, E2.
    destruct (Nat.ltb_spec t T); destruct (Nat.ltb_spec t (S T)); try lia; split; reflexivity.
Qed.
Lemma twiddle th (w : R * R) : (fst w * (- 2 * sin (1 / 2 * th) ^ 2) - snd w * sin th + fst w, snd w * (- 2 * sin (1 / 2 * th) ^ 2) + fst w * sin th + snd w) = Cmult w (cis th).
Proof.
  assert (cos th = 1 - 2 * sin (1 / 2 * th) ^ 2) as E. { replace th with (2 * (1 / 2 * th)) at 1 by field. rewrite cos_2a_sin. ring. }
  unfold Cmult, cis. cbn [fst snd]. rewrite E. f_equal; ring.
Qed.
Lemma range_inner h n t : (t < h)%nat -> range (1 + 2 * t) (2 * (2 * h * n) + 1) (2 * (2 * h)) = map (fun s => (2 * (2 * h * s + t) + 1)%nat) (seq 0 n).
Proof.
  intros Ht. unfold range. replace ((2 * (2 * h * n) + 1 - (1 + 2 * t) + 2 * (2 * h) - 1) / (2 * (2 * h)))%nat with n.
  - apply map_ext. intros s. lia.
  - destruct n as [|n]. { symmetry. apply Nat.div_small. lia. } apply (Nat.div_unique _ _ _ (4 * h - 1 - 2 * t)); nia.
Qed.
Lemma stage_cx sg h n y : (0 < h)%nat -> cx (stage sg (2 * (2 * h * n)) (2 * h) y) = outer (cis (sg * (2 * PI / INR (2 * h)))) h n h (cx y).
Proof.
  intros Hh. unfold stage. cbv zeta. rewrite range_1, fold_map. set (th := sg * (2 * PI / INR (2 * h))).
  enough (forall T, (T <= h)%nat -> let st := fold_left (fun st m => let '(y, wr, wi) := st in
     (fold_left (butterfly wr wi (2 * h)) (range (1 + 2 * m) (2 * (2 * h * n) + 1) (2 * (2 * h))) y, wr * (- 2 * sin (1 / 2 * th) ^ 2) - wi * sin th + wr, wi * (- 2 * sin (1 / 2 * th) ^ 2) + wr * sin th + wi)) (seq 0 T) (y, 1, 0) in
     cx (fst (fst st)) = outer (cis th) h n T (cx y) /\ (snd (fst st), snd st) = cpow (cis th) T) as I by apply (I h (le_n _)).
  induction T as [|T IH]; intros HT; [split; reflexivity|]. cbv zeta. rewrite fold_seq_S. destruct (IH ltac:(lia)) as [E1 E2]. clear IH. set (st := fold_left _ _ _) in *. destruct st as [[y' wr] wi]. cbn [fst snd] in *. split.
  - unfold outer. rewrite fold_seq_S. fold (outer (cis th) h n T (cx y)). rewrite <- E1. rewrite <- E2. rewrite range_inner by lia. rewrite fold_map. unfold inner. clear - Hh. generalize (seq 0 n) as l. intros l. revert y'. induction l as [|s l IH]; intros y'; [reflexivity|]. cbn [fold_left]. rewrite IH. f_equal. apply but_cx. exact Hh.
  - cbn [cpow]. rewrite <- E2. exact (twiddle th (wr, wi)).
Qed.

(** ** All stages *)
Lemma csum_split n f g : csum n (fun i => Cplus (f i) (g i)) = Cplus (csum n f) (csum n g).
Proof. apply injective_projections; unfold Cplus; cbn [fst snd]; rewrite ?csum_fst, ?csum_snd; [rewrite <- nsum_plus|rewrite <- nsum_plus]; apply nsum_ext; intros; unfold Cplus; reflexivity. Qed.
Lemma csum_minus n f g : csum n (fun i => Cminus (f i) (g i)) = Cminus (csum n f) (csum n g).
Proof. apply injective_projections; unfold Cminus, Cplus, Copp; cbn [fst snd]; rewrite ?csum_fst, ?csum_snd; [change (nsum n (fun i => fst (f i)) + - nsum n (fun i => fst (g i))) with (nsum n (fun i => fst (f i)) - nsum n (fun i => fst (g i)))|change (nsum n (fun i => snd (f i)) + - nsum n (fun i => snd (g i))) with (nsum n (fun i => snd (f i)) - nsum n (fun i => snd (g i)))]; rewrite <- nsum_minus; apply nsum_ext; intros; cbn [fst snd]; ring. Qed.
Lemma csum_pairs M f : csum (2 * M) f = csum M (fun j => Cplus (f (2 * j)%nat) (f (2 * j + 1)%nat)).
Proof. apply injective_projections; rewrite ?csum_fst, ?csum_snd, nsum_pairs; apply nsum_ext; intros; reflexivity. Qed.
Lemma cis_2PI k x : cis (x + 2 * PI * INR k) = cis x.
Proof. unfold cis. replace (x + 2 * PI * INR k) with (x + 2 * INR k * PI) by ring. rewrite cos_period, sin_period. reflexivity. Qed.
Lemma cis_per sg k x : sg = 1 \/ sg = - 1 -> cis (x + sg * (2 * PI * INR k)) = cis x.
Proof.
  intros [->| ->]; [rewrite Rmult_1_l; apply cis_2PI|]. rewrite <- (cis_2PI k (x + _)). f_equal. ring.
Qed.
Lemma cis_half sg : sg = 1 \/ sg = - 1 -> cis (sg * PI) = RtoC (- 1).
Proof. intros [->| ->]; unfold cis, RtoC; [rewrite Rmult_1_l, cos_PI, sin_PI; reflexivity|]. replace (- 1 * PI) with (- PI) by ring. rewrite cos_neg, sin_neg, cos_PI, sin_PI. f_equal. ring. Qed.
Definition DFT (sg : R) (N : nat) (x : nat -> C) (a : nat) : C := csum N (fun r => Cmult (x r) (cis (sg * (2 * PI * INR r * INR a / INR N)))).
Lemma INR_2pow_pos q : 0 < INR (2 ^ q).
Proof. apply lt_0_INR. pose proof (Nat.pow_nonzero 2 q ltac:(lia)). lia. Qed.
Lemma INR_pow_S q : INR (2 ^ S q) = 2 * INR (2 ^ q).
Proof. change (2 ^ S q)%nat with (2 * 2 ^ q)%nat. rewrite mult_INR. reflexivity. Qed.
(** the two halves of a transform, x at the even and at the odd places *)
Lemma DFT_step sg q x t : sg = 1 \/ sg = - 1 -> (t < 2 ^ q)%nat ->
  let ev := DFT sg (2 ^ q) (fun r => x (2 * r)%nat) t in
  let od := Cmult (cis (INR t * (sg * (2 * PI / INR (2 * 2 ^ q))))) (DFT sg (2 ^ q) (fun r => x (2 * r + 1)%nat) t) in
  DFT sg (2 ^ S q) x t = Cplus ev od /\ DFT sg (2 ^ S q) x (2 ^ q + t) = Cminus ev od.
Proof.
  intros Hs Ht ev od. pose proof (INR_2pow_pos q) as P. assert (INR (2 * 2 ^ q) = 2 * INR (2 ^ q)) as E2 by (rewrite mult_INR; reflexivity).
  assert (forall u, Cmult (cis u) (DFT sg (2 ^ q) (fun r => x (2 * r + 1)%nat) t) = csum (2 ^ q) (fun r => Cmult (x (2 * r + 1)%nat) (Cmult (cis (sg * (2 * PI * INR r * INR t / INR (2 ^ q)))) (cis u)))) as M.
  { intros u. rewrite Cmult_comm. unfold DFT. rewrite csum_mult_r. apply csum_ext. intros r _. now rewrite Cmult_assoc. }
  unfold ev, od. rewrite M. split; unfold DFT at 1; change (2 ^ S q)%nat with (2 * 2 ^ q)%nat; rewrite csum_pairs.
  - unfold DFT. rewrite <- csum_split. apply csum_ext. intros r _. f_equal; f_equal.
    + f_equal. rewrite E2, mult_INR. cbn [INR]. field. lra.
    + rewrite cis_plus. f_equal. rewrite E2, plus_INR, mult_INR. cbn [INR]. field. lra.
  - unfold DFT. rewrite <- csum_minus. apply csum_ext. intros r _. unfold Cminus. f_equal.
    + f_equal. rewrite <- (cis_per sg r (sg * (2 * PI * INR r * INR t / INR (2 ^ q)))) by exact Hs. f_equal. rewrite E2, plus_INR, mult_INR. cbn [INR]. field. lra.
    + rewrite cis_plus.
      replace (sg * (2 * PI * INR (2 * r + 1) * INR (2 ^ q + t) / INR (2 * 2 ^ q))) with ((sg * (2 * PI * INR r * INR t / INR (2 ^ q)) + INR t * (sg * (2 * PI / INR (2 * 2 ^ q)))) + sg * PI + sg * (2 * PI * INR r)).
      * rewrite cis_per by exact Hs. rewrite <- (cis_plus _ (sg * PI)), cis_half by exact Hs. unfold Cmult, Copp, RtoC. cbn [fst snd]. f_equal; ring.
      * rewrite E2, !plus_INR, mult_INR. cbn [INR]. field. lra.
Qed.
Definition blocks (sg : R) (q d : nat) (x z : nat -> C) : Prop :=
  forall s t, (s < 2 ^ d)%nat -> (t < 2 ^ q)%nat -> z (2 ^ q * s + t)%nat = DFT sg (2 ^ q) (fun r => x (r * 2 ^ d + rv d s)%nat) t.
Lemma blocks_step sg q d x y : sg = 1 \/ sg = - 1 -> blocks sg q (S d) x (cx y) -> blocks sg (S q) d x (cx (stage sg (2 * 2 ^ (q + S d)) (2 * 2 ^ q) y)).
Proof.
  intros Hs B. pose proof (Nat.pow_nonzero 2 q ltac:(lia)) as P. replace (2 ^ (q + S d))%nat with (2 * 2 ^ q * 2 ^ d)%nat by (rewrite Nat.pow_add_r; cbn [Nat.pow]; ring).
  rewrite stage_cx by lia.
  assert (forall s t, (s < 2 ^ d)%nat -> (t < 2 ^ q)%nat -> cx y (2 * 2 ^ q * s + t)%nat = DFT sg (2 ^ q) (fun r => x (2 * r * 2 ^ d + rv d s)%nat) t /\
     cx y (2 * 2 ^ q * s + (2 ^ q + t))%nat = DFT sg (2 ^ q) (fun r => x ((2 * r + 1) * 2 ^ d + rv d s)%nat) t) as V.
  { intros s t HS Ht. split.
    - replace (2 * 2 ^ q * s + t)%nat with (2 ^ q * (2 * s) + t)%nat by ring. rewrite B by (cbn [Nat.pow]; lia). rewrite rv_even. apply csum_ext. intros r _. f_equal. f_equal. cbn [Nat.pow]. ring.
    - replace (2 * 2 ^ q * s + (2 ^ q + t))%nat with (2 ^ q * (2 * s + 1) + t)%nat by ring. rewrite B by (cbn [Nat.pow]; lia). rewrite rv_odd. apply csum_ext. intros r _. f_equal. f_equal. cbn [Nat.pow]. ring. }
  intros s t HS Ht. change (2 ^ S q)%nat with (2 * 2 ^ q)%nat in *. destruct (Nat.lt_ge_cases t (2 ^ q)) as [L|L].
  - destruct (outer_spec (cis (sg * (2 * PI / INR (2 * 2 ^ q)))) (2 ^ q) (2 ^ d) (2 ^ q) (cx y) s t (le_n _) HS L) as [E _]. rewrite E. rewrite (proj2 (Nat.ltb_lt t _)) by exact L.
    destruct (V s t HS L) as [-> ->]. rewrite cpow_cis. symmetry. apply (DFT_step sg q (fun r => x (r * 2 ^ d + rv d s)%nat) t Hs L).
  - assert (t = 2 ^ q + (t - 2 ^ q))%nat as E by lia. rewrite E. set (t' := (t - 2 ^ q)%nat) in *. assert (t' < 2 ^ q)%nat as L' by lia.
    destruct (outer_spec (cis (sg * (2 * PI / INR (2 * 2 ^ q)))) (2 ^ q) (2 ^ d) (2 ^ q) (cx y) s t' (le_n _) HS L') as [_ E']. rewrite E'. rewrite (proj2 (Nat.ltb_lt t' _)) by exact L'.
    destruct (V s t' HS L') as [-> ->]. rewrite cpow_cis. symmetry. apply (DFT_step sg q (fun r => x (r * 2 ^ d + rv d s)%nat) t' Hs L').
Qed.
Lemma stages_spec sg x : sg = 1 \/ sg = - 1 -> forall d fuel q y, (d <= fuel)%nat -> blocks sg q d x (cx y) -> blocks sg (q + d) 0 x (cx (stages fuel sg (2 * 2 ^ (q + d)) (2 * 2 ^ q) y)).
Proof.
  intros Hs. induction d as [|d IH]; intros fuel q y Hf B.
  - rewrite Nat.add_0_r. destruct fuel as [|fuel]; [exact B|]. cbn [stages]. rewrite Nat.ltb_irrefl. exact B.
  - destruct fuel as [|fuel]; [lia|]. cbn [stages]. rewrite (proj2 (Nat.ltb_lt _ _)).
    + replace (q + S d)%nat with (S q + d)%nat by lia. change (2 * 2 ^ q)%nat with (2 ^ S q)%nat at 1. apply IH; [lia|]. replace (S q + d)%nat with (q + S d)%nat by lia. now apply blocks_step.
    + apply Nat.mul_lt_mono_pos_l; [lia|]. apply Nat.pow_lt_mono_r; lia.
Qed.
Lemma four1_spec p y sg a : sg = 1 \/ sg = - 1 -> (a < 2 ^ p)%nat -> cx (four1 (2 ^ p) y sg) a = DFT sg (2 ^ p) (cx y) a.
Proof.
  intros Hs Ha. unfold four1. cbv zeta. pose proof (stages_spec sg (cx y) Hs p (2 * 2 ^ p) 0 (bit_reverse (2 ^ p) y)) as S. cbn [Nat.pow Nat.mul Nat.add] in S. specialize (S).
  assert (p <= 2 ^ p + (2 ^ p + 0))%nat as F by (pose proof (Nat.pow_gt_lin_r 2 p ltac:(lia)); lia). specialize (S F).
  assert (blocks sg 0 p (cx y) (cx (bit_reverse (2 ^ p) y))) as B.
  { intros s t HS Ht. cbn [Nat.pow] in *. assert (t = O) by lia. subst t. rewrite Nat.mul_1_l, Nat.add_0_r, bit_reverse_spec by exact HS. unfold DFT. cbn [csum]. rewrite Nat.mul_0_l, Nat.add_0_l.
    replace (sg * (2 * PI * INR 0 * INR 0 / INR 1)) with 0 by (cbn; field). unfold cis. rewrite cos_0, sin_0. unfold Cplus, Cmult, RtoC. cbn [fst snd]. apply injective_projections; cbn [fst snd]; ring. }
  specialize (S B O a). cbn [Nat.pow] in S. rewrite Nat.mul_0_r, Nat.add_0_l in S. cbn [Nat.mul]. rewrite S by (cbn [Nat.pow]; lia). apply csum_ext. intros r _. f_equal. f_equal. cbn [rv]. lia.
Qed.

(** ** Inversion *)
Lemma csum_scal n z f : csum n (fun i => Cmult z (f i)) = Cmult z (csum n f).
Proof. rewrite Cmult_comm, csum_mult_r. apply csum_ext. intros i _. apply Cmult_comm. Qed.
Lemma csum_swap n m f : csum n (fun i => csum m (fun j => f i j)) = csum m (fun j => csum n (fun i => f i j)).
Proof.
  apply injective_projections; rewrite ?csum_fst, ?csum_snd.
  - rewrite (nsum_ext n _ (fun i => nsum m (fun j => fst (f i j)))) by (intros; apply csum_fst). rewrite nsum_swap. apply nsum_ext. intros. now rewrite csum_fst.
  - rewrite (nsum_ext n _ (fun i => nsum m (fun j => snd (f i j)))) by (intros; apply csum_snd). rewrite nsum_swap. apply nsum_ext. intros. now rewrite csum_snd.
Qed.
Lemma csum_single n f i : (i < n)%nat -> (forall j, (j < n)%nat -> j <> i -> f j = RtoC 0) -> csum n f = f i.
Proof.
  intros Hi H. apply injective_projections; rewrite ?csum_fst, ?csum_snd; apply (nsum_single n (fun j => _ (f j)) i Hi); intros j Hj N; rewrite (H j Hj N); reflexivity.
Qed.
Lemma geometric N a : Cmult (Cminus (cis a) (RtoC 1)) (csum N (fun k => cis (INR k * a))) = Cminus (cis (INR N * a)) (RtoC 1).
Proof.
  induction N as [|N IH].
  - cbn [csum INR]. unfold cis. rewrite Rmult_0_l, cos_0, sin_0. unfold Cminus, Cmult, Cplus, Copp, RtoC. cbn [fst snd]. f_equal; ring.
  - cbn [csum]. rewrite Cmult_plus_distr_l, IH, S_INR. replace ((INR N + 1) * a) with (a + INR N * a) by ring. rewrite <- cis_plus. ring.
Qed.
Lemma cis_neq_1 a : 0 < a < 2 * PI -> Cminus (cis a) (RtoC 1) <> RtoC 0.
Proof.
  intros H E. apply (f_equal fst) in E. unfold Cminus, cis, Cplus, Copp, RtoC in E. cbn [fst snd] in E. assert (0 < sin (a / 2)) as P by (apply sin_gt_0; lra).
  replace a with (2 * (a / 2)) in E by field. rewrite cos_2a_sin in E. assert (0 < sin (a / 2) * sin (a / 2)) by (apply Rmult_lt_0_compat; exact P). lra.
Qed.
Lemma cis_neg_conj a : cis (- a) = (fst (cis a), - snd (cis a)).
Proof. unfold cis. now rewrite cos_neg, sin_neg. Qed.
Lemma roots_sum sg N d : sg = 1 \/ sg = - 1 -> (0 < d < N)%nat -> csum N (fun k => cis (INR k * (sg * (2 * PI * INR d / INR N)))) = RtoC 0.
Proof.
  intros Hs H. assert (0 < INR d) by (apply lt_0_INR; lia). assert (INR d < INR N) by (apply lt_INR; lia). pose proof PI_RGT_0.
  assert (csum N (fun k => cis (INR k * (2 * PI * INR d / INR N))) = RtoC 0) as P.
  { set (a := 2 * PI * INR d / INR N). assert (0 < a < 2 * PI) as B.
    { unfold a. split; [apply Rdiv_lt_0_compat; [repeat (lra || apply Rmult_lt_0_compat)|lra]|]. apply Rmult_lt_reg_r with (INR N); [lra|]. unfold Rdiv. rewrite Rmult_assoc, Rinv_l by lra. rewrite Rmult_1_r. apply Rmult_lt_compat_l; lra. }
    pose proof (geometric N a) as G. replace (INR N * a) with (0 + 2 * PI * INR d) in G by (unfold a; field; lra). rewrite cis_2PI in G.
    assert (Cminus (cis 0) (RtoC 1) = RtoC 0) as Z by (unfold cis, Cminus, Cplus, Copp, RtoC; rewrite cos_0, sin_0; cbn [fst snd]; f_equal; ring). rewrite Z in G.
    destruct (Ceq_dec (csum N (fun k => cis (INR k * a))) (RtoC 0)) as [E|E]; [exact E|]. exfalso. exact (Cmult_neq_0 _ _ (cis_neq_1 a B) E G). }
  destruct Hs as [->| ->].
  - rewrite <- P. apply csum_ext. intros k _. now rewrite Rmult_1_l.
  - apply injective_projections; rewrite ?csum_fst, ?csum_snd.
    + apply (f_equal fst) in P. rewrite csum_fst in P. rewrite <- P. apply nsum_ext. intros k _. replace (INR k * (- 1 * (2 * PI * INR d / INR N))) with (- (INR k * (2 * PI * INR d / INR N))) by ring. now rewrite cis_neg_conj.
    + apply (f_equal snd) in P. rewrite csum_snd in P. change (snd (RtoC 0)) with 0 in *. rewrite (nsum_ext N _ (fun k => - 1 * snd (cis (INR k * (2 * PI * INR d / INR N))))).
      * rewrite nsum_scal, P. ring.
      * intros k _. replace (INR k * (- 1 * (2 * PI * INR d / INR N))) with (- (INR k * (2 * PI * INR d / INR N))) by ring. rewrite cis_neg_conj. cbn [snd]. ring.
Qed.
Lemma csum_const N z : csum N (fun _ => z) = Cmult (RtoC (INR N)) z.
Proof. induction N as [|N IH]; [cbn [csum INR]; ring|]. cbn [csum]. rewrite IH, S_INR, RtoC_plus. ring. Qed.
Lemma DFT_inverse sg N x a : sg = 1 \/ sg = - 1 -> (a < N)%nat -> DFT (- sg) N (DFT sg N x) a = Cmult (RtoC (INR N)) (x a).
Proof.
  intros Hs Ha. assert (0 < INR N) by (apply lt_0_INR; lia). unfold DFT.
  rewrite (csum_ext N _ (fun k => csum N (fun r => Cmult (x r) (cis (INR k * (sg * (2 * PI * (INR r - INR a) / INR N))))))).
  2:{ intros k _. rewrite csum_mult_r. apply csum_ext. intros r _. rewrite <- Cmult_assoc, cis_plus. f_equal. f_equal. field. lra. }
  rewrite csum_swap. rewrite (csum_single N _ a Ha).
  - rewrite (csum_ext N _ (fun _ => x a)), csum_const; [reflexivity|]. intros k _. replace (INR k * (sg * (2 * PI * (INR a - INR a) / INR N))) with 0 by (field; lra). unfold cis. rewrite cos_0, sin_0. apply injective_projections; unfold Cmult; cbn [fst snd]; ring.
  - intros r Hr N1. rewrite csum_scal. destruct (Nat.lt_ge_cases a r) as [L|L].
    + rewrite <- (minus_INR r a) by lia. rewrite roots_sum; [ring|exact Hs|lia].
    + rewrite (csum_ext N _ (fun k => cis (INR k * (- sg * (2 * PI * INR (a - r) / INR N))))).
      * rewrite roots_sum; [ring| |lia]. destruct Hs as [->| ->]; [right|left]; ring.
      * intros k _. f_equal. rewrite minus_INR by lia. field. lra.
Qed.
Lemma DFT_ext sg N x x' a : (forall r, (r < N)%nat -> x r = x' r) -> DFT sg N x a = DFT sg N x' a.
Proof. intros H. apply csum_ext. intros r Hr. now rewrite H. Qed.
Lemma four1_inverse p y sg a : sg = 1 \/ sg = - 1 -> (a < 2 ^ p)%nat -> cx (four1 (2 ^ p) (four1 (2 ^ p) y sg) (- sg)) a = Cmult (RtoC (INR (2 ^ p))) (cx y a).
Proof.
  intros Hs Ha. assert (- sg = 1 \/ - sg = - 1) as Hs' by (destruct Hs as [->| ->]; [right|left]; ring). rewrite four1_spec by assumption. rewrite <- (DFT_inverse sg) by assumption. apply DFT_ext. intros r Hr. now apply four1_spec.
Qed.

(** ** The transform of a real array *)
Definition h1 (H : nat) (z : nat -> C) (k : nat) : C := Cmult (RtoC (1 / 2)) (Cplus (z k) (Cconj (z (H - k)%nat))).
Definition h2 (c2 : R) (H : nat) (z : nat -> C) (k : nat) : C := Cmult (RtoC c2) (Cmult Ci (Cminus (z k) (Cconj (z (H - k)%nat)))).
Definition ulow (c2 : R) (w : C) H z k : C := Cplus (h1 H z k) (Cmult w (h2 c2 H z k)).
Definition uhigh (c2 : R) (w : C) H z k : C := Cconj (Cminus (h1 H z k) (Cmult w (h2 c2 H z k))).
Lemma unpack_step_cx H c2 wpr wpi y wr wi k c : (0 < k)%nat -> (2 * k < H)%nat ->
  cx (fst (fst (unpack_step (2 * H) c2 wpr wpi (y, wr, wi) (1 + k)))) c =
  if Nat.eqb c k then ulow c2 (wr, wi) H (cx y) k else if Nat.eqb c (H - k) then uhigh c2 (wr, wi) H (cx y) k else cx y c.
Proof.
  intros Hk HH. unfold unpack_step. cbv zeta. cbn [fst snd].
  replace (1 + k + (1 + k) - 1 - 1)%nat with (2 * k)%nat by lia. replace (1 + (1 + k + (1 + k) - 1) - 1)%nat with (2 * k + 1)%nat by lia.
  replace (2 * H + 3 - (1 + (1 + k + (1 + k) - 1)) - 1)%nat with (2 * (H - k))%nat by lia. replace (1 + (2 * H + 3 - (1 + (1 + k + (1 + k) - 1))) - 1)%nat with (2 * (H - k) + 1)%nat by lia.
  unfold cx at 1. destruct (Nat.eqb_spec c k) as [->|N1]; [|destruct (Nat.eqb_spec c (H - k)) as [->|N2]].
  - rewrite (upd_other _ (2 * (H - k) + 1)%nat) by lia. rewrite (upd_other _ (2 * (H - k))%nat) by lia. rewrite (upd_other _ (2 * k + 1)%nat) by lia. rewrite upd_same.
    rewrite (upd_other _ (2 * (H - k) + 1)%nat) by lia. rewrite (upd_other _ (2 * (H - k))%nat) by lia. rewrite upd_same.
    unfold ulow, h1, h2, cx, Cminus, Cplus, Cmult, Copp, Cconj, Ci, RtoC. cbn [fst snd]. f_equal; field.
  - rewrite (upd_other _ (2 * (H - k) + 1)%nat) by lia. rewrite upd_same. rewrite upd_same.
    unfold uhigh, h1, h2, cx, Cminus, Cplus, Cmult, Copp, Cconj, Ci, RtoC. cbn [fst snd]. f_equal; field.
  - rewrite !upd_other by lia. reflexivity.
Qed.
Lemma unpack_cx H c2 th y T : (2 * T < H)%nat ->
  let wpr := - 2 * sin (1 / 2 * th) ^ 2 in let wpi := sin th in
  let st := fold_left (unpack_step (2 * H) c2 wpr wpi) (map (fun t => (2 + 1 * t)%nat) (seq 0 T)) (y, 1 + wpr, wpi) in
  (snd (fst st), snd st) = cis (INR (S T) * th) /\
  (forall k, (0 < k <= T)%nat -> cx (fst (fst st)) k = ulow c2 (cis (INR k * th)) H (cx y) k /\ cx (fst (fst st)) (H - k) = uhigh c2 (cis (INR k * th)) H (cx y) k) /\
  forall c, (c = O \/ T < c /\ T < H - c)%nat -> cx (fst (fst st)) c = cx y c.
Proof.
  intros HT wpr wpi. rewrite fold_map. induction T as [|T IH].
  - cbn [seq fold_left fst snd]. split; [|split]; [|intros k Hk; lia|reflexivity]. rewrite Rmult_1_l. unfold cis. f_equal. unfold wpr. replace th with (2 * (1 / 2 * th)) at 2 by field. rewrite cos_2a_sin. ring.
  - rewrite fold_seq_S. destruct (IH ltac:(lia)) as [W [L U]]. clear IH. set (st := fold_left _ _ _) in *. destruct st as [[y' wr] wi]. cbn [fst snd] in *. replace (2 + 1 * T)%nat with (1 + S T)%nat by lia. split; [|split].
    + unfold unpack_step. cbv zeta. cbn [fst snd]. replace (INR (S (S T)) * th) with (INR (S T) * th + th) by (rewrite (S_INR (S T)); ring). rewrite <- cis_plus, <- W. exact (twiddle th (wr, wi)).
    + intros k Hk. rewrite !unpack_step_cx by lia. destruct (Nat.eqb_spec k (S T)) as [->|N].
      * rewrite (proj2 (Nat.eqb_neq (H - S T) (S T))) by lia. rewrite Nat.eqb_refl. rewrite W. unfold ulow, uhigh, h1, h2. rewrite !(U (S T)), !(U (H - S T)%nat) by lia. split; reflexivity.
      * rewrite (proj2 (Nat.eqb_neq k (H - S T))) by lia. rewrite (proj2 (Nat.eqb_neq (H - k) (S T))) by lia. rewrite (proj2 (Nat.eqb_neq (H - k) (H - S T))) by lia. apply L. lia.
    + intros c Hc. rewrite unpack_step_cx by lia. rewrite (proj2 (Nat.eqb_neq c (S T))) by lia. rewrite (proj2 (Nat.eqb_neq c (H - S T))) by lia. apply U. lia.
Qed.
Lemma range_2 n : range 2 (n + 1) 1 = map (fun t => (2 + 1 * t)%nat) (seq 0 (n - 1)).
Proof. unfold range. f_equal. f_equal. rewrite Nat.div_1_r. lia. Qed.

(** the even and the odd part of the transform *)
Definition even_part (p : nat) (y : nat -> R) : nat -> C := DFT 1 (2 ^ p) (fun r => RtoC (y (2 * r)%nat)).
Definition odd_part (p : nat) (y : nat -> R) : nat -> C := DFT 1 (2 ^ p) (fun r => RtoC (y (2 * r + 1)%nat)).
Lemma cx_parts p y k : DFT 1 (2 ^ p) (cx y) k = Cplus (even_part p y k) (Cmult Ci (odd_part p y k)).
Proof.
  unfold even_part, odd_part, DFT. rewrite <- csum_scal, <- csum_split. apply csum_ext. intros r _. unfold cx, Cplus, Cmult, Ci, RtoC. cbn [fst snd]. f_equal; ring.
Qed.
Lemma real_conj p (x : nat -> R) k : (k <= 2 ^ p)%nat -> Cconj (DFT 1 (2 ^ p) (fun r => RtoC (x r)) (2 ^ p - k)) = DFT 1 (2 ^ p) (fun r => RtoC (x r)) k.
Proof.
  intros Hk. pose proof (INR_2pow_pos p). unfold DFT.
  assert (forall r, Cconj (Cmult (RtoC (x r)) (cis (1 * (2 * PI * INR r * INR (2 ^ p - k) / INR (2 ^ p))))) = Cmult (RtoC (x r)) (cis (1 * (2 * PI * INR r * INR k / INR (2 ^ p))))) as E.
  { intros r. rewrite <- (cis_2PI r (- _)) || idtac. rewrite minus_INR by exact Hk.
    replace (1 * (2 * PI * INR r * (INR (2 ^ p) - INR k) / INR (2 ^ p))) with (- (1 * (2 * PI * INR r * INR k / INR (2 ^ p))) + 2 * PI * INR r) by (field; lra). rewrite cis_2PI, cis_neg_conj.
    unfold Cconj, Cmult, RtoC. cbn [fst snd]. f_equal; ring. }
  apply injective_projections.
  - cbn [Cconj fst]. rewrite !csum_fst. apply nsum_ext. intros r _. rewrite <- E. reflexivity.
  - cbn [Cconj snd]. rewrite !csum_snd. rewrite (nsum_ext _ (fun i => snd (Cmult (RtoC (x i)) (cis (1 * (2 * PI * INR i * INR k / INR (2 ^ p)))))) (fun i => - 1 * snd (Cmult (RtoC (x i)) (cis (1 * (2 * PI * INR i * INR (2 ^ p - k) / INR (2 ^ p))))))).
    + rewrite nsum_scal. ring.
    + intros r _. rewrite <- E. unfold Cconj. cbn [snd]. ring.
Qed.
Lemma cx_parts_conj p y k : (k <= 2 ^ p)%nat -> Cconj (DFT 1 (2 ^ p) (cx y) (2 ^ p - k)) = Cminus (even_part p y k) (Cmult Ci (odd_part p y k)).
Proof.
  intros Hk. rewrite cx_parts. pose proof (real_conj p (fun r => y (2 * r)%nat) k Hk) as E1. pose proof (real_conj p (fun r => y (2 * r + 1)%nat) k Hk) as E2. cbv beta in E1, E2. fold (even_part p y) in E1. fold (odd_part p y) in E2. rewrite <- E1, <- E2.
  unfold Cconj, Cminus, Cplus, Copp, Cmult, Ci. cbn [fst snd]. f_equal; ring.
Qed.
Lemma even_part_conj p y k : (k <= 2 ^ p)%nat -> even_part p y (2 ^ p - k) = Cconj (even_part p y k).
Proof. intros Hk. unfold even_part. rewrite <- (real_conj p _ k Hk). unfold Cconj. cbn [fst snd]. rewrite Ropp_involutive. apply surjective_pairing. Qed.
Lemma odd_part_conj p y k : (k <= 2 ^ p)%nat -> odd_part p y (2 ^ p - k) = Cconj (odd_part p y k).
Proof. intros Hk. unfold odd_part. rewrite <- (real_conj p _ k Hk). unfold Cconj. cbn [fst snd]. rewrite Ropp_involutive. apply surjective_pairing. Qed.
(** the transform of the real array *)
Definition RF (n : nat) (y : nat -> R) (k : nat) : C := csum n (fun j => Cmult (RtoC (y j)) (cis (2 * PI * INR j * INR k / INR n))).
Lemma RF_parts p y k : RF (2 * 2 ^ p) y k = Cplus (even_part p y k) (Cmult (cis (INR k * (1 * (PI / INR (2 ^ p))))) (odd_part p y k)).
Proof.
  pose proof (INR_2pow_pos p). unfold RF. rewrite csum_pairs, csum_split. f_equal.
  - apply csum_ext. intros r _. f_equal. f_equal. rewrite !mult_INR. cbn [INR]. field. lra.
  - unfold odd_part, DFT. rewrite <- csum_scal. apply csum_ext. intros r _. rewrite (Cmult_comm (cis _)), <- Cmult_assoc, cis_plus. f_equal. f_equal. rewrite plus_INR, !mult_INR. cbn [INR]. field. lra.
Qed.
Lemma half_n p : Nat.div (2 * 2 ^ p) 2 = (2 ^ p)%nat.
Proof. rewrite Nat.mul_comm. apply Nat.div_mul. lia. Qed.
Lemma quarter_n p : let T := (Nat.div (2 * 2 ^ p) 4 - 1)%nat in (2 * T < 2 ^ p)%nat /\ forall k, (0 < k < 2 ^ p)%nat -> (k <= T \/ 2 ^ p - k <= T \/ k = 2 ^ p - k /\ T < k)%nat.
Proof.
  cbv zeta. destruct p as [|p]; [cbn; split; intros; lia|]. replace (Nat.div (2 * 2 ^ S p) 4) with (2 ^ p)%nat.
  - cbn [Nat.pow]. pose proof (Nat.pow_nonzero 2 p ltac:(lia)). split; intros; lia.
  - cbn [Nat.pow]. symmetry. replace (2 * (2 * 2 ^ p))%nat with (2 ^ p * 4)%nat by lia. apply Nat.div_mul. lia.
Qed.
Lemma cx_upd01 y a b k : (0 < k)%nat -> cx (upd (upd y 0 a) 1 b) k = cx y k.
Proof. intros H. unfold cx. rewrite !upd_other by lia. reflexivity. Qed.
Lemma csum_cis_0 sg N x : DFT sg N x 0 = csum N x.
Proof.
  apply csum_ext. intros r _. replace (sg * (2 * PI * INR r * INR 0 / INR N)) with 0 by (cbn [INR]; unfold Rdiv; ring). unfold cis. rewrite cos_0, sin_0. apply injective_projections; unfold Cmult; cbn [fst snd]; ring.
Qed.
Lemma cis_0 : cis 0 = RtoC 1.
Proof. unfold cis, RtoC. now rewrite cos_0, sin_0. Qed.
Lemma cis_PI2 : cis (PI / 2) = Ci.
Proof. unfold cis, Ci. now rewrite cos_PI2, sin_PI2. Qed.
Lemma cis_unit a : Cmult (cis (- a)) (cis a) = RtoC 1.
Proof. rewrite cis_plus. replace (- a + a) with 0 by ring. apply cis_0. Qed.
Lemma mid_angle p k : k = (2 ^ p - k)%nat -> INR k * (1 * (PI / INR (2 ^ p))) = PI / 2.
Proof.
  intros E. assert (2 ^ p = 2 * k)%nat as -> by (pose proof (Nat.pow_nonzero 2 p ltac:(lia)); lia). assert (0 < k)%nat as P by (pose proof (Nat.pow_nonzero 2 p ltac:(lia)); lia). apply lt_0_INR in P. rewrite mult_INR. cbn [INR]. field. lra.
Qed.
Lemma RF_high p y k : (k <= 2 ^ p)%nat -> Cconj (RF (2 * 2 ^ p) y (2 ^ p - k)) = Cminus (even_part p y k) (Cmult (cis (INR k * (1 * (PI / INR (2 ^ p))))) (odd_part p y k)).
Proof.
  intros Hk. pose proof (INR_2pow_pos p). rewrite RF_parts, even_part_conj, odd_part_conj by exact Hk. rewrite minus_INR by exact Hk. replace ((INR (2 ^ p) - INR k) * (1 * (PI / INR (2 ^ p)))) with (- (INR k * (1 * (PI / INR (2 ^ p)))) + PI) by (field; lra).
  set (t := INR k * _). unfold cis. rewrite neg_cos, neg_sin, cos_neg, sin_neg. unfold Cconj, Cminus, Cplus, Copp, Cmult. cbn [fst snd]. f_equal; ring.
Qed.
Lemma realfft_forward p y : let n := (2 * 2 ^ p)%nat in
  (forall k, (0 < k < 2 ^ p)%nat -> cx (realfft n y true) k = RF n y k) /\
  realfft n y true 0%nat = nsum n y /\ realfft n y true 1%nat = nsum n (fun j => (-1) ^ j * y j).
Proof.
  cbv zeta. unfold realfft. cbv zeta. cbn [negb]. rewrite half_n, range_2. destruct (quarter_n p) as [HT HK]. set (T := (Nat.div (2 * 2 ^ p) 4 - 1)%nat) in *.
  destruct (unpack_cx (2 ^ p) (- 1 * (1 / 2)) (1 * (PI / INR (2 ^ p))) (four1 (2 ^ p) y 1) T HT) as [_ [L U]]. set (y' := fst (fst (fold_left _ _ _))) in *.
  assert (forall k, (k < 2 ^ p)%nat -> cx (four1 (2 ^ p) y 1) k = DFT 1 (2 ^ p) (cx y) k) as F by (intros; apply four1_spec; [now left|assumption]).
  pose proof (Nat.pow_nonzero 2 p ltac:(lia)) as NZ. pose proof (INR_2pow_pos p) as NP.
  assert (forall k, (0 < k <= T)%nat -> h1 (2 ^ p) (cx (four1 (2 ^ p) y 1)) k = even_part p y k /\ h2 (- 1 * (1 / 2)) (2 ^ p) (cx (four1 (2 ^ p) y 1)) k = odd_part p y k) as HH.
  { intros k Hk. unfold h1, h2. rewrite !F by lia. rewrite cx_parts_conj, cx_parts by lia. split; apply injective_projections; unfold Cmult, Cminus, Cplus, Copp, Ci, RtoC; cbn [fst snd]; field. }
  split; [|].
  - intros k Hk. rewrite cx_upd01 by lia. destruct (HK k Hk) as [K|[K|[K1 K2]]].
    + destruct (L k ltac:(lia)) as [E _]. rewrite E, RF_parts. unfold ulow. destruct (HH k ltac:(lia)) as [-> ->]. reflexivity.
    + destruct (L (2 ^ p - k)%nat ltac:(lia)) as [_ E]. replace (2 ^ p - (2 ^ p - k))%nat with k in E by lia. rewrite E. unfold uhigh. destruct (HH (2 ^ p - k)%nat ltac:(lia)) as [-> ->].
      rewrite <- RF_high by lia. replace (2 ^ p - (2 ^ p - k))%nat with k by lia. unfold Cconj. cbn [fst snd]. rewrite Ropp_involutive. symmetry. apply surjective_pairing.
    + rewrite U by lia. rewrite F by lia. rewrite cx_parts, RF_parts. rewrite mid_angle by exact K1. now rewrite cis_PI2.
  - assert (cx y' 0 = csum (2 ^ p) (cx y)) as E0 by (rewrite U by lia; rewrite F by lia; apply csum_cis_0). pose proof (f_equal fst E0) as Er. pose proof (f_equal snd E0) as Ei. unfold cx in Er at 1. unfold cx in Ei at 1. rewrite csum_fst in Er. rewrite csum_snd in Ei. cbn [fst snd Nat.mul Nat.add] in Er, Ei. unfold cx in Er, Ei. cbn [fst snd] in Er, Ei.
    rewrite (upd_other _ _ _ 0%nat) by lia. rewrite upd_same. rewrite upd_same. rewrite (upd_other _ _ _ 1%nat) by lia. rewrite !nsum_pairs. rewrite Er, Ei. split.
    + rewrite nsum_plus. reflexivity.
    + rewrite <- nsum_minus. apply nsum_ext. intros r _. rewrite pow_1_even, Nat.add_1_r, pow_1_odd. ring.
Qed.
Lemma realfft_inverse p y j : let n := (2 * 2 ^ p)%nat in (j < n)%nat -> realfft n (realfft n y true) false j = INR n / 2 * y j.
Proof.
  cbv zeta. intros Hj. destruct (realfft_forward p y) as [X [X0 X1]]. pose proof (INR_2pow_pos p) as NP.
  set (x := realfft (2 * 2 ^ p) y true) in *. clearbody x. unfold realfft. cbv zeta. rewrite half_n, range_2. destruct (quarter_n p) as [HT HK]. set (T := (Nat.div (2 * 2 ^ p) 4 - 1)%nat) in *.
  destruct (unpack_cx (2 ^ p) (- - 1 * (1 / 2)) (- 1 * (PI / INR (2 ^ p))) x T HT) as [_ [L U]]. set (y' := fst (fst (fold_left _ _ _))) in *.
  pose proof (Nat.pow_nonzero 2 p ltac:(lia)) as NZ.
  set (z := upd (upd y' 0 _) 1 _).
  assert (forall k, (k < 2 ^ p)%nat -> cx z k = DFT 1 (2 ^ p) (cx y) k) as Z.
  { intros k Hk. destruct (Nat.eq_dec k 0) as [->|Nk].
    - rewrite csum_cis_0. pose proof (U 0%nat ltac:(lia)) as E0. pose proof (f_equal fst E0) as Er. pose proof (f_equal snd E0) as Ei. unfold cx in Er, Ei. cbn [fst snd Nat.mul Nat.add] in Er, Ei.
      unfold cx at 1. unfold z. cbn [Nat.mul Nat.add]. rewrite (upd_other _ _ _ 0%nat) by lia. rewrite upd_same. rewrite upd_same. rewrite (upd_other _ _ _ 1%nat) by lia. rewrite Er, Ei, X0, X1.
      rewrite !nsum_pairs. apply injective_projections; cbn [fst snd]; rewrite ?csum_fst, ?csum_snd, <- ?nsum_plus, <- ?nsum_minus, <- nsum_scal; apply nsum_ext; intros r _; unfold cx; cbn [fst snd]; rewrite pow_1_even, Nat.add_1_r, pow_1_odd; field.
    - unfold z. rewrite cx_upd01 by lia.
      assert (forall k, (0 < k <= T)%nat -> h1 (2 ^ p) (cx x) k = even_part p y k /\ Cmult (cis (INR k * (- 1 * (PI / INR (2 ^ p))))) (h2 (- - 1 * (1 / 2)) (2 ^ p) (cx x) k) = Cmult Ci (odd_part p y k)) as HH.
      { clear k Hk Nk. intros k Hk. unfold h1, h2. rewrite !X by lia. rewrite RF_high, RF_parts by lia. set (w := cis (INR k * (1 * (PI / INR (2 ^ p))))). replace (INR k * (- 1 * (PI / INR (2 ^ p)))) with (- (INR k * (1 * (PI / INR (2 ^ p))))) by ring. split.
        - apply injective_projections; unfold Cmult, Cminus, Cplus, Copp, Ci, RtoC; cbn [fst snd]; field.
        - set (a := cis (- _)). assert (Cmult a w = RtoC 1) as Q by apply cis_unit. transitivity (Cmult (Cmult a w) (Cmult Ci (odd_part p y k))).
          + apply injective_projections; unfold Cmult, Cminus, Cplus, Copp, Ci, RtoC; cbn [fst snd]; field.
          + rewrite Q. ring. }
      destruct (HK k ltac:(lia)) as [K|[K|[K1 K2]]].
      + destruct (L k ltac:(lia)) as [E _]. rewrite E, cx_parts. unfold ulow. destruct (HH k ltac:(lia)) as [-> ->]. reflexivity.
      + destruct (L (2 ^ p - k)%nat ltac:(lia)) as [_ E]. replace (2 ^ p - (2 ^ p - k))%nat with k in E by lia. rewrite E. unfold uhigh. destruct (HH (2 ^ p - k)%nat ltac:(lia)) as [-> ->].
        rewrite <- cx_parts_conj by lia. replace (2 ^ p - (2 ^ p - k))%nat with k by lia. unfold Cconj. cbn [fst snd]. rewrite Ropp_involutive. symmetry. apply surjective_pairing.
      + rewrite U by lia. rewrite X by lia. rewrite cx_parts, RF_parts. rewrite mid_angle by exact K1. now rewrite cis_PI2. }
  assert (forall a, (a < 2 ^ p)%nat -> cx (four1 (2 ^ p) z (- 1)) a = Cmult (RtoC (INR (2 ^ p))) (cx y a)) as G.
  { intros a Ha. rewrite four1_spec by (try assumption; now right). rewrite <- (DFT_inverse 1) by (try assumption; now left). apply DFT_ext. exact Z. }
  replace (INR (2 * 2 ^ p) / 2) with (INR (2 ^ p)) by (rewrite mult_INR; cbn [INR]; field).
  destruct (parity j) as [s [->| ->]]; pose proof (G s ltac:(lia)) as E.
  - apply (f_equal fst) in E. unfold cx, Cmult, RtoC in E. cbn [fst snd] in E. rewrite E. ring.
  - apply (f_equal snd) in E. unfold cx, Cmult, RtoC in E. cbn [fst snd] in E. rewrite E. ring.
Qed.
Lemma even_2 k : Nat.even (2 * k) = true.
Proof. rewrite Nat.even_mul. reflexivity. Qed.
Lemma odd_2 k : Nat.even (2 * k + 1) = false.
Proof. rewrite Nat.even_add, even_2. reflexivity. Qed.
Lemma div_2 k : Nat.div (2 * k) 2 = k.
Proof. rewrite Nat.mul_comm. apply Nat.div_mul. lia. Qed.
Lemma div_21 k : Nat.div (2 * k + 1) 2 = k.
Proof. symmetry. apply (Nat.div_unique _ _ _ 1); lia. Qed.
Lemma realfftnp_spec n y k : cx (realfftnp n y) k = RF n y k.
Proof.
  unfold cx, realfftnp. rewrite even_2, odd_2, div_2, div_21. unfold rfft, RF. apply injective_projections; cbn [fst snd]; rewrite ?csum_fst, ?csum_snd.
  - apply nsum_ext. intros j _. rewrite cis_neg_conj. unfold Cmult, RtoC. cbn [fst snd]. ring.
  - replace (- nsum n _) with (- 1 * nsum n (fun i => snd (Cmult (RtoC (y i)) (cis (- (2 * PI * INR i * INR k / INR n)))))) by ring. rewrite <- nsum_scal. apply nsum_ext. intros j _. rewrite cis_neg_conj. unfold Cmult, RtoC. cbn [fst snd]. ring.
Qed.

(** ** The sine transform *)
Lemma sum_reflect n f : nsum n (fun i => f (S i)) = nsum n (fun i => f (S n - S i)%nat).
Proof. rewrite nsum_rev. apply nsum_ext. intros i Hi. f_equal. lia. Qed.
Definition SF (n : nat) (y : nat -> R) (k : R) : R := nsum n (fun j => y j * sin (PI * INR j * k / INR n)).
Lemma SF_S n y k : SF (S n) y k = nsum n (fun i => y (S i) * sin (PI * INR (S i) * k / INR (S n))).
Proof. unfold SF. rewrite nsum_shift. cbn [INR]. replace (PI * 0 * k / match n with O => 1 | S _ => INR n + 1 end) with 0 by (unfold Rdiv; ring). rewrite sin_0. ring. Qed.
Lemma fold_real n u k : let y' := fun i => sin (PI * INR i / INR (S n)) * (u i + u (S n - i)%nat) + 1 / 2 * (u i - u (S n - i)%nat) in
  nsum n (fun i => y' (S i) * cos (2 * PI * INR (S i) * INR k / INR (S n))) = SF (S n) u (2 * INR k + 1) - SF (S n) u (2 * INR k - 1) /\
  nsum n (fun i => y' (S i) * sin (2 * PI * INR (S i) * INR k / INR (S n))) = SF (S n) u (2 * INR k).
Proof.
  cbv zeta. assert (0 < INR (S n)) as P by (apply lt_0_INR; lia). rewrite !SF_S. set (N := S n) in *.
  assert (forall i, (i < n)%nat -> INR (N - S i) = INR N - INR (S i)) as I by (intros i Hi; apply minus_INR; unfold N; lia).
  assert (forall i, (i < n)%nat -> N - (N - S i) = S i)%nat as J by (unfold N; intros; lia).
  assert (forall i, (i < n)%nat -> sin (PI * INR (N - S i) / INR N) = sin (PI * INR (S i) / INR N)) as S1.
  { intros i Hi. rewrite I by exact Hi. replace (PI * (INR N - INR (S i)) / INR N) with (PI - PI * INR (S i) / INR N) by (field; lra). apply sin_PI_x. }
  assert (forall i, (i < n)%nat -> cis (2 * PI * INR (N - S i) * INR k / INR N) = (cos (2 * PI * INR (S i) * INR k / INR N), - sin (2 * PI * INR (S i) * INR k / INR N))) as S2.
  { intros i Hi. rewrite I by exact Hi. replace (2 * PI * (INR N - INR (S i)) * INR k / INR N) with (- (2 * PI * INR (S i) * INR k / INR N) + 2 * PI * INR k) by (field; lra). rewrite cis_2PI. unfold cis. now rewrite cos_neg, sin_neg. }
  split.
  - set (g := fun i => sin (PI * INR i / INR N) * u i * cos (2 * PI * INR i * INR k / INR N)). set (h := fun i => 1 / 2 * u i * cos (2 * PI * INR i * INR k / INR N)).
    rewrite (nsum_ext n _ (fun i => (g (S i) + g (N - S i)%nat) + (h (S i) - h (N - S i)%nat))).
    + rewrite nsum_plus, nsum_plus, nsum_minus. unfold N in *. rewrite <- !sum_reflect.
      replace (nsum n (fun i => g (S i)) + nsum n (fun i => g (S i)) + (nsum n (fun i => h (S i)) - nsum n (fun i => h (S i)))) with (2 * nsum n (fun i => g (S i))) by ring. rewrite <- nsum_scal, <- nsum_minus. apply nsum_ext. intros i Hi. unfold g.
      replace (PI * INR (S i) * (2 * INR k + 1) / INR (S n)) with (2 * PI * INR (S i) * INR k / INR (S n) + PI * INR (S i) / INR (S n)) by (field; lra). replace (PI * INR (S i) * (2 * INR k - 1) / INR (S n)) with (2 * PI * INR (S i) * INR k / INR (S n) - PI * INR (S i) / INR (S n)) by (field; lra). rewrite sin_plus, sin_minus. ring.
    + intros i Hi. unfold g, h. rewrite S1 by exact Hi. pose proof (f_equal fst (S2 i Hi)) as C. cbn [cis fst] in C. rewrite C. ring.
  - set (g := fun i => sin (PI * INR i / INR N) * u i * sin (2 * PI * INR i * INR k / INR N)). set (h := fun i => 1 / 2 * u i * sin (2 * PI * INR i * INR k / INR N)).
    rewrite (nsum_ext n _ (fun i => (g (S i) - g (N - S i)%nat) + (h (S i) + h (N - S i)%nat))).
    + rewrite nsum_plus, nsum_plus, nsum_minus. rewrite <- !sum_reflect.
      replace (nsum n (fun i => g (S i)) - nsum n (fun i => g (S i)) + (nsum n (fun i => h (S i)) + nsum n (fun i => h (S i)))) with (2 * nsum n (fun i => h (S i))) by ring. rewrite <- nsum_scal. apply nsum_ext. intros i Hi. unfold h.
      replace (PI * INR (S i) * (2 * INR k) / INR N) with (2 * PI * INR (S i) * INR k / INR N) by (field; lra). field.
    + intros i Hi. unfold g, h. rewrite S1 by exact Hi. pose proof (f_equal snd (S2 i Hi)) as C. cbn [cis snd] in C. rewrite C. ring.
Qed.
Lemma SF_ext n y y' k : (forall j, (0 < j < n)%nat -> y j = y' j) -> SF n y k = SF n y' k.
Proof.
  intros H. destruct n as [|n]; [reflexivity|]. rewrite !SF_S. apply nsum_ext. intros i Hi. rewrite H by lia. reflexivity.
Qed.
Lemma SF_odd n y k : SF n y (- k) = - SF n y k.
Proof.
  unfold SF. replace (- nsum n (fun j => y j * sin (PI * INR j * k / INR n))) with (- 1 * nsum n (fun j => y j * sin (PI * INR j * k / INR n))) by ring. rewrite <- nsum_scal. apply nsum_ext. intros j _. replace (PI * INR j * - k / INR n) with (- (PI * INR j * k / INR n)) by (unfold Rdiv; ring). rewrite sin_neg. ring.
Qed.
Lemma sinft_spec M y k : (0 < M)%nat -> (k < 2 * M)%nat -> sinft (2 * M) y k = SF (2 * M) y (INR k).
Proof.
  intros HM Hk. unfold sinft. cbv zeta. rewrite div_2. set (u := upd y 0 0).
  set (y' := fun i => if Nat.leb M i then _ else _).
  set (n := (2 * M - 1)%nat). assert (2 * M = S n)%nat as EN by (unfold n; lia). assert (0 < INR (S n)) as P by (apply lt_0_INR; lia).
  assert (forall i, (0 < i < S n)%nat -> y' i = sin (PI * INR i / INR (S n)) * (u i + u (S n - i)%nat) + 1 / 2 * (u i - u (S n - i)%nat)) as Y.
  { intros i Hi. unfold y'. destruct (Nat.leb_spec M i) as [L|L].
    - rewrite EN. replace (S n - (S n - i))%nat with i by lia. rewrite minus_INR by lia. replace ((INR (S n) - INR i) / (2 * INR (S n)) * PI * 2) with (PI - PI * INR i / INR (S n)) by (field; lra). rewrite sin_PI_x. ring.
    - rewrite (proj2 (Nat.leb_le 1 i)) by lia. rewrite EN. replace (INR i / (2 * INR (S n)) * PI * 2) with (PI * INR i / INR (S n)) by (field; lra). ring. }
  assert (y' 0%nat = 0) as Y0. { unfold y'. destruct (Nat.leb_spec M 0); [lia|]. cbn [Nat.leb]. unfold u. apply upd_same. }
  assert (forall k, RF (S n) y' k = (SF (S n) y (2 * INR k + 1) - SF (S n) y (2 * INR k - 1), SF (S n) y (2 * INR k))) as R.
  { intros q. destruct (fold_real n u q) as [A B]. cbv zeta in A, B. rewrite !(SF_ext (S n) y u) by (intros j Hj; unfold u; rewrite upd_other by lia; reflexivity). rewrite <- A, <- B. unfold RF. apply injective_projections; cbn [fst snd]; rewrite ?csum_fst, ?csum_snd; rewrite nsum_shift, Y0.
    - rewrite (nsum_ext n _ (fun i => (sin (PI * INR (S i) / INR (S n)) * (u (S i) + u (S n - S i)%nat) + 1 / 2 * (u (S i) - u (S n - S i)%nat)) * cos (2 * PI * INR (S i) * INR q / INR (S n)))).
      + unfold Cmult, RtoC. cbn [fst snd]. ring.
      + intros i Hi. rewrite Y by lia. unfold Cmult, RtoC, cis. cbn [fst snd]. ring.
    - rewrite (nsum_ext n _ (fun i => (sin (PI * INR (S i) / INR (S n)) * (u (S i) + u (S n - S i)%nat) + 1 / 2 * (u (S i) - u (S n - S i)%nat)) * sin (2 * PI * INR (S i) * INR q / INR (S n)))).
      + unfold Cmult, RtoC. cbn [fst snd]. ring.
      + intros i Hi. rewrite Y by lia. unfold Cmult, RtoC, cis. cbn [fst snd]. ring. }
  rewrite EN. clearbody y'. assert (forall q, cx (realfftnp (S n) y') q = RF (S n) y' q) as Q by (intros; apply realfftnp_spec).
  assert (forall q, realfftnp (S n) y' (2 * q)%nat = SF (S n) y (2 * INR q + 1) - SF (S n) y (2 * INR q - 1)) as Qe by (intros q; pose proof (f_equal fst (Q q)) as E; rewrite R in E; exact E).
  assert (forall q, realfftnp (S n) y' (2 * q + 1)%nat = SF (S n) y (2 * INR q)) as Qo by (intros q; pose proof (f_equal snd (Q q)) as E; rewrite R in E; exact E).
  destruct (parity k) as [s [->| ->]].
  - rewrite even_2. replace (INR (2 * s)) with (2 * INR s) by (rewrite mult_INR; reflexivity). destruct (Nat.eq_dec s 0) as [->|N].
    + cbn [Nat.mul Nat.add]. rewrite upd_same. cbn [INR]. unfold SF. rewrite nsum_0; [reflexivity|]. intros i _. replace (PI * INR i * (2 * 0) / _) with 0 by (unfold Rdiv; ring). rewrite sin_0. ring.
    + rewrite !upd_other by lia. apply Qo.
  - rewrite odd_2, div_21. replace (INR (2 * s + 1)) with (2 * INR s + 1) by (rewrite plus_INR, mult_INR; reflexivity). clear Hk. induction s as [|s IH].
    + cbn [nsum]; change (2 * 0)%nat with O. rewrite upd_other by lia. rewrite upd_same. specialize (Qe O). change (2 * 0)%nat with O in Qe. change (INR 0) with 0 in *. rewrite Qe. replace (2 * 0 - 1) with (- (1)) by ring. rewrite SF_odd. replace (2 * 0 + 1) with 1 by ring. field.
    + change (nsum (S (S s)) (fun i => upd (upd (realfftnp (S n) y') 0 (realfftnp (S n) y' 0%nat * (1 / 2))) 1 0 (2 * i)%nat)) with (nsum (S s) (fun i => upd (upd (realfftnp (S n) y') 0 (realfftnp (S n) y' 0%nat * (1 / 2))) 1 0 (2 * i)%nat) + upd (upd (realfftnp (S n) y') 0 (realfftnp (S n) y' 0%nat * (1 / 2))) 1 0 (2 * S s)%nat).
      rewrite IH. rewrite !upd_other by lia. rewrite Qe. replace (2 * INR (S s) - 1) with (2 * INR s + 1) by (rewrite S_INR; ring). ring.
Qed.
Lemma cos_parity_sum n d : (0 < n)%nat -> (0 < d < 2 * n)%nat -> nsum n (fun k => cos (PI * INR k * INR d / INR n)) = if Nat.even d then 0 else 1.
Proof.
  intros Hn Hd. assert (0 < INR n) as P by (apply lt_0_INR; lia). destruct (parity d) as [s [->| ->]].
  - rewrite even_2. pose proof (roots_sum 1 n s (or_introl eq_refl) ltac:(lia)) as E. apply (f_equal fst) in E. rewrite csum_fst in E. change (fst (RtoC 0)) with 0 in E. rewrite <- E. apply nsum_ext. intros k _. cbn [cis fst]. f_equal. rewrite mult_INR. cbn [INR]. field. lra.
  - rewrite odd_2. destruct n as [|n]; [lia|]. rewrite nsum_shift. set (g := fun k => cos (PI * INR k * INR (2 * s + 1) / INR (S n))). change (g O + nsum n (fun i => g (S i)) = 1).
    assert (g O = 1) as ->. { unfold g. cbn [INR]. replace (PI * 0 * INR (2 * s + 1) / _) with 0 by (unfold Rdiv; ring). apply cos_0. }
    enough (nsum n (fun i => g (S i)) = - nsum n (fun i => g (S i))) by lra. rewrite sum_reflect at 1. replace (- nsum n (fun i => g (S i))) with (- 1 * nsum n (fun i => g (S i))) by ring. rewrite <- nsum_scal. apply nsum_ext. intros i Hi. unfold g. rewrite minus_INR by lia.
    replace (PI * (INR (S n) - INR (S i)) * INR (2 * s + 1) / INR (S n)) with (- (PI * INR (S i) * INR (2 * s + 1) / INR (S n)) + PI + 2 * INR s * PI) by (rewrite plus_INR, mult_INR; cbn [INR]; field; cbn [INR] in P; lra).
    rewrite cos_period, neg_cos, cos_neg. ring.
Qed.
Lemma sin_orth n j l : (0 < j < n)%nat -> (0 < l < n)%nat -> nsum n (fun k => sin (PI * INR j * INR k / INR n) * sin (PI * INR k * INR l / INR n)) = if Nat.eqb j l then INR n / 2 else 0.
Proof.
  intros Hj Hl. assert (0 < INR n) as P by (apply lt_0_INR; lia).
  assert (forall a b, (b <= a)%nat -> (0 < a < n)%nat -> (0 < b < n)%nat -> nsum n (fun k => sin (PI * INR a * INR k / INR n) * sin (PI * INR k * INR b / INR n)) = if Nat.eqb a b then INR n / 2 else 0) as W.
  { clear j l Hj Hl. intros a b L Ha Hb.
    rewrite (nsum_ext n _ (fun k => 1 / 2 * (cos (PI * INR k * INR (a - b) / INR n) - cos (PI * INR k * INR (a + b) / INR n)))).
    - rewrite nsum_scal, nsum_minus, (cos_parity_sum n (a + b)) by lia. destruct (Nat.eqb_spec a b) as [->|N].
      + rewrite (nsum_ext n _ (fun _ => 1)).
        * rewrite nsum_const. replace (b + b)%nat with (2 * b)%nat by lia. rewrite even_2. field.
        * intros k _. rewrite Nat.sub_diag. cbn [INR]. replace (PI * INR k * 0 / INR n) with 0 by (field; lra). apply cos_0.
      + rewrite (cos_parity_sum n (a - b)) by lia. replace (Nat.even (a + b)) with (Nat.even (a - b)); [ring|]. replace (a + b)%nat with ((a - b) + 2 * b)%nat by lia. rewrite Nat.even_add, even_2. destruct (Nat.even (a - b)); reflexivity.
    - intros k _. rewrite minus_INR, plus_INR by lia.
      replace (PI * INR k * (INR a - INR b) / INR n) with (PI * INR a * INR k / INR n - PI * INR k * INR b / INR n) by (field; lra). replace (PI * INR k * (INR a + INR b) / INR n) with (PI * INR a * INR k / INR n + PI * INR k * INR b / INR n) by (field; lra). rewrite cos_plus, cos_minus. field. }
  destruct (Nat.le_ge_cases l j) as [L|L]; [now apply W|]. rewrite Nat.eqb_sym, <- (W l j L Hl Hj). apply nsum_ext. intros k _. rewrite Rmult_comm. f_equal; f_equal; field; lra.
Qed.
Lemma sinft_inverse M y j : (0 < M)%nat -> (0 < j < 2 * M)%nat -> sinft (2 * M) (sinft (2 * M) y) j = INR (2 * M) / 2 * y j.
Proof.
  intros HM Hj. rewrite sinft_spec by lia. unfold SF at 1. rewrite (nsum_ext _ _ (fun k => nsum (2 * M) (fun l => y l * sin (PI * INR l * INR k / INR (2 * M)) * sin (PI * INR k * INR j / INR (2 * M))))).
  2:{ intros k Hk. rewrite sinft_spec by lia. unfold SF. rewrite nsum_scal_r. reflexivity. }
  rewrite nsum_swap. rewrite (nsum_single _ _ j) by (lia || (intros l Hl N; destruct (Nat.eq_dec l 0) as [->|Z]; [apply nsum_0; intros k _; replace (PI * INR 0 * INR k / _) with 0 by (cbn [INR]; unfold Rdiv; ring); rewrite sin_0; ring|rewrite (nsum_ext _ _ (fun k => y l * (sin (PI * INR l * INR k / INR (2 * M)) * sin (PI * INR k * INR j / INR (2 * M))))) by (intros; ring); rewrite nsum_scal, sin_orth by lia; apply Nat.eqb_neq in N; rewrite N; ring])).
  rewrite (nsum_ext _ _ (fun k => y j * (sin (PI * INR j * INR k / INR (2 * M)) * sin (PI * INR k * INR j / INR (2 * M))))) by (intros; ring). rewrite nsum_scal, sin_orth by lia. rewrite Nat.eqb_refl. ring.
Qed.
