From Coq Require Import Reals List Arith Lra Lia Psatz.
From Verif Require Import M_Interp.
Import ListNotations.
Open Scope R_scope.

(** Non-decreasing and increasing arrays. *)
Definition ascending (xs : list R) : Prop := forall i j, (i <= j < length xs)%nat -> at_ xs i <= at_ xs j.
Definition increasing (xs : list R) : Prop := forall i j, (i < j < length xs)%nat -> at_ xs i < at_ xs j.
Lemma incr_asc xs : increasing xs -> ascending xs.
Proof. intros H i j Hij. destruct (Nat.eq_dec i j) as [->|]; [lra|]. left. apply H. lia. Qed.

Section BS.
  Variables (xs : list R) (q : R).
  Hypothesis Hs : ascending xs.
  Let n := length xs.

  Definition bs_inv (s : nat * nat) (L : nat) : Prop :=
    let '(lo, hi) := s in
    (hi <= n)%nat /\ (lo <= hi)%nat /\ (forall i, (hi <= i < n)%nat -> q < at_ xs i) /\
    ((lo = O /\ (hi < 2 ^ L)%nat /\ (forall i, (i < lo)%nat -> at_ xs i <= q))
     \/ ((lo < hi)%nat /\ (forall i, (i <= lo)%nat -> at_ xs i <= q) /\ (hi - lo <= 2 ^ L)%nat)).

  Lemma bs_step_inv s L : bs_inv s (S L) -> bs_inv (bs_step xs q s) L.
  Proof.
    destruct s as [lo hi]. unfold bs_inv, bs_step. intros (H1 & H2 & H3 & H4).
    pose proof (Nat.div_mod (lo + hi) 2 ltac:(lia)) as HD. pose proof (Nat.mod_upper_bound (lo + hi) 2 ltac:(lia)) as HM.
    set (mid := ((lo + hi) / 2)%nat) in *.
    assert (HP : (2 ^ S L = 2 * 2 ^ L)%nat) by (cbn; lia). rewrite HP in H4.
    destruct (Nat.eq_dec hi 0) as [E0|E0].
    { (* empty *) assert (lo = 0)%nat by lia. assert (mid = 0)%nat by lia. subst lo hi. rewrite H0 in *.
      assert (0 < 2 ^ L)%nat by (pose proof (Nat.pow_nonzero 2 L ltac:(lia)); lia).
      destruct (Rlt_dec q (at_ xs 0)).
      - split; [lia|]. split; [lia|]. split; [assumption|]. left. split; [lia|]. split; [lia|]. intros i Hi; lia.
      - split; [lia|]. split; [lia|]. split; [assumption|]. left. split; [lia|]. split; [lia|]. intros i Hi; lia. }
    destruct (Rlt_dec q (at_ xs mid)) as [Hq|Hq].
    - split; [lia|]. split; [lia|]. split.
      + intros i Hi. apply Rlt_le_trans with (at_ xs mid); [assumption|]. apply Hs. fold n. lia.
      + destruct H4 as [(A & B & D)|(A & B & D)].
        * left. repeat split; [assumption|lia|assumption].
        * right. assert (mid <> lo) by (intros ->; specialize (B lo ltac:(lia)); lra). repeat split; [lia|assumption|lia].
    - apply Rnot_lt_le in Hq. split; [lia|]. split; [lia|]. split; [assumption|]. right. split; [|split].
      + destruct H4 as [(A & B & D)|(A & B & D)]; lia.
      + intros i Hi. apply Rle_trans with (at_ xs mid); [|assumption]. apply Hs. fold n.
        destruct H4 as [(A & B & D)|(A & B & D)]; lia.
      + destruct H4 as [(A & B & D)|(A & B & D)]; lia.
  Qed.

  Lemma bs_iter L s K : bs_inv s (L + K) -> bs_inv (Nat.iter L (bs_step xs q) s) K.
  Proof.
    revert s K. induction L as [|L IH]; intros s K H; [exact H|]. cbn. apply bs_step_inv. apply IH.
    replace (L + S K)%nat with (S L + K)%nat by lia. exact H.
  Qed.

  (** The bisection finds the number of entries not above [q]. *)
  Lemma searchsorted_spec :
    (searchsorted xs q <= n)%nat /\
    (forall i, (i < searchsorted xs q)%nat -> at_ xs i <= q) /\
    (forall i, (searchsorted xs q <= i < n)%nat -> q < at_ xs i).
  Proof.
    unfold searchsorted. fold n. set (L := Nat.log2_up (n + 1)).
    assert (HL : (n < 2 ^ L)%nat).
    { destruct (Nat.eq_dec n 0) as [E|E]; [rewrite E; pose proof (Nat.pow_nonzero 2 L ltac:(lia)); lia|].
      pose proof (Nat.log2_up_spec (n + 1) ltac:(lia)). fold L in H. lia. }
    assert (Hi : bs_inv (O, n) (L + 0)).
    { unfold bs_inv. rewrite Nat.add_0_r. split; [lia|]. split; [lia|]. split; [intros i Hi; lia|]. left. split; [lia|]. split; [lia|]. intros i Hi; lia. }
    apply bs_iter in Hi. destruct (Nat.iter L (bs_step xs q) (O, n)) as [lo hi]. cbn [snd].
    unfold bs_inv in Hi. cbn [Nat.pow] in Hi. destruct Hi as (A & B & D & [(E & F & G)|(E & F & G)]).
    - split; [assumption|]. split; [intros i Hi; lia|assumption].
    - split; [assumption|]. split; [|assumption]. intros i Hi. apply F. lia.
  Qed.
End BS.

Lemma at_map_lin a b ys zs i : length ys = length zs ->
  at_ (map (fun p => a * fst p + b * snd p) (combine ys zs)) i = a * at_ ys i + b * at_ zs i.
Proof.
  unfold at_. revert zs i. induction ys as [|y ys IH]; intros [|z zs] i H; cbn in H; try discriminate.
  - destruct i; cbn; ring.
  - destruct i; cbn; [reflexivity|]. apply IH. congruence.
Qed.

Section I.
  Variables (lft rgt : option R) (xs ys : list R).
  Let n := length xs.

  (** In a segment the interpolant is the straight line through its ends. *)
  Lemma interp_segment i q : increasing xs -> (S i < n)%nat -> at_ xs i <= q <= at_ xs (S i) ->
    interp lft rgt xs ys q =
    at_ ys i + (q - at_ xs i) / (at_ xs (S i) - at_ xs i) * (at_ ys (S i) - at_ ys i).
  Proof.
    intros Hs Hi Hq. pose proof (incr_asc xs Hs) as Ha. destruct (searchsorted_spec xs q Ha) as (S1 & S2 & S3).
    fold n in S1, S3. unfold interp. fold n.
    destruct (Rgt_dec q (at_ xs (n - 1))) as [G|G].
    { exfalso. assert (at_ xs (S i) <= at_ xs (n - 1)) by (apply Ha; fold n; lia). lra. }
    destruct (Rlt_dec q (at_ xs 0)) as [G0|G0].
    { exfalso. assert (at_ xs 0 <= at_ xs i) by (apply Ha; fold n; lia). lra. }
    assert (Hd : at_ xs i < at_ xs (S i)) by (apply Hs; fold n; lia).
    set (k := searchsorted xs q) in *.
    assert (Hk : (i < k)%nat). { destruct (Nat.le_gt_cases k i) as [C|C]; [|assumption]. specialize (S3 i ltac:(lia)). lra. }
    destruct (Nat.eq_dec k (S i)) as [E|E].
    - rewrite E. replace (Nat.min (Nat.max (S i) 1) (n - 1)) with (S i) by lia.
      replace (S i - 1)%nat with i by lia. destruct (Req_EM_T (at_ xs (S i) - at_ xs i) 0); [lra|reflexivity].
    - assert (Hq1 : q = at_ xs (S i)). { specialize (S2 (S i) ltac:(lia)). lra. }
      assert (Hline : at_ ys i + (q - at_ xs i) / (at_ xs (S i) - at_ xs i) * (at_ ys (S i) - at_ ys i) = at_ ys (S i)).
      { rewrite Hq1. field. lra. }
      rewrite Hline.
      destruct (Nat.eq_dec (S i) (n - 1)) as [El|El].
      + (* last knot *)
        replace (Nat.min (Nat.max k 1) (n - 1)) with (S i) by lia.
        replace (S i - 1)%nat with i by lia. destruct (Req_EM_T (at_ xs (S i) - at_ xs i) 0); [lra|exact Hline].
      + assert (Hk2 : k = S (S i)).
        { destruct (Nat.le_gt_cases k (S (S i))) as [C|C]; [lia|]. specialize (S2 (S (S i)) C).
          assert (at_ xs (S i) < at_ xs (S (S i))) by (apply Hs; fold n; lia). lra. }
        rewrite Hk2. replace (Nat.min (Nat.max (S (S i)) 1) (n - 1)) with (S (S i)) by lia.
        replace (S (S i) - 1)%nat with (S i) by lia.
        destruct (Req_EM_T (at_ xs (S (S i)) - at_ xs (S i)) 0); [reflexivity|].
        rewrite Hq1. field. lra.
  Qed.
  Lemma interp_knot i : increasing xs -> (2 <= n)%nat -> (i < n)%nat -> interp lft rgt xs ys (at_ xs i) = at_ ys i.
  Proof.
    intros Hs Hn Hi. destruct (Nat.eq_dec (S i) n) as [E|E].
    - destruct i as [|i]; [lia|]. assert (at_ xs i < at_ xs (S i)) by (apply Hs; fold n; lia).
      rewrite (interp_segment i) by (try assumption; try lia; lra). field. lra.
    - assert (at_ xs i < at_ xs (S i)) by (apply Hs; fold n; lia).
      rewrite (interp_segment i) by (try assumption; try lia; lra). field. lra.
  Qed.
  Lemma interp_left q : (1 <= n)%nat -> ascending xs -> q < at_ xs 0 ->
    interp lft rgt xs ys q = match lft with Some v => v | None => at_ ys 0 end.
  Proof.
    intros Hn Hs Hq. unfold interp. fold n. assert (at_ xs 0 <= at_ xs (n - 1)) by (apply Hs; fold n; lia).
    destruct (Rgt_dec q (at_ xs (n - 1))); [lra|]. destruct (Rlt_dec q (at_ xs 0)); [reflexivity|lra].
  Qed.
  Lemma interp_right q : at_ xs (n - 1) < q ->
    interp lft rgt xs ys q = match rgt with Some v => v | None => at_ ys (n - 1) end.
  Proof.
    intros Hq. unfold interp. fold n. destruct (Rgt_dec q (at_ xs (n - 1))); [reflexivity|lra].
  Qed.

  (** Every value is a convex combination of two entries, or an outer value. *)
  Lemma interp_convex q : ascending xs -> (1 <= n)%nat ->
    (exists i j t, (i < n)%nat /\ (j < n)%nat /\ 0 <= t <= 1 /\ interp lft rgt xs ys q = (1 - t) * at_ ys i + t * at_ ys j)
    \/ (exists v, lft = Some v /\ interp lft rgt xs ys q = v) \/ (exists v, rgt = Some v /\ interp lft rgt xs ys q = v).
  Proof.
    intros Hs Hn. destruct (searchsorted_spec xs q Hs) as (S1 & S2 & S3). fold n in S1, S3. unfold interp. fold n.
    set (k := searchsorted xs q) in *.
    destruct (Rgt_dec q (at_ xs (n - 1))) as [G|G].
    { destruct rgt as [v|]; [right; right; eauto|]. left. exists (n - 1)%nat, (n - 1)%nat, 0. split; [lia|]. split; [lia|]. split; [lra|ring]. }
    destruct (Rlt_dec q (at_ xs 0)) as [G0|G0].
    { destruct lft as [v|]; [right; left; eauto|]. left. exists O, O, 0. split; [lia|]. split; [lia|]. split; [lra|ring]. }
    left. set (i := Nat.min (Nat.max k 1) (n - 1)).
    destruct (Req_EM_T (at_ xs i - at_ xs (i - 1)) 0) as [E|E].
    { exists (i - 1)%nat, (i - 1)%nat, 0. split; [unfold i; lia|]. split; [unfold i; lia|]. split; [lra|ring]. }
    assert (Hi1 : (1 <= i < n)%nat).
    { unfold i. split; [|lia]. destruct (Nat.eq_dec n 1); [|lia]. exfalso. apply E. unfold i.
      replace (n - 1)%nat with O by lia. rewrite Nat.min_0_r. cbn. lra. }
    assert (Hle : at_ xs (i - 1) <= at_ xs i) by (apply Hs; fold n; lia).
    assert (Hk1 : (1 <= k)%nat). { destruct k; [|lia]. specialize (S3 O ltac:(lia)). lra. }
    assert (Hlo : at_ xs (i - 1) <= q) by (apply S2; unfold i; lia).
    assert (Hhi : q <= at_ xs i).
    { destruct (Nat.le_gt_cases n k) as [C|C].
      - replace i with (n - 1)%nat by (unfold i; lia). lra.
      - replace i with k by (unfold i; lia). left. apply S3. lia. }
    exists (i - 1)%nat, i, ((q - at_ xs (i - 1)) / (at_ xs i - at_ xs (i - 1))).
    split; [lia|]. split; [lia|]. split; [split|].
    - apply Rmult_le_pos; [lra|]. left. apply Rinv_0_lt_compat. lra.
    - apply (Rmult_le_reg_r (at_ xs i - at_ xs (i - 1))); [lra|].
      replace ((q - at_ xs (i - 1)) / (at_ xs i - at_ xs (i - 1)) * (at_ xs i - at_ xs (i - 1))) with (q - at_ xs (i - 1)) by (field; lra). lra.
    - ring.
  Qed.
  Lemma interp_bounds q a b : ascending xs -> (1 <= n)%nat ->
    (forall i, (i < n)%nat -> a <= at_ ys i <= b) ->
    (forall v, lft = Some v -> a <= v <= b) -> (forall v, rgt = Some v -> a <= v <= b) ->
    a <= interp lft rgt xs ys q <= b.
  Proof.
    intros Hs Hn Hy Hl Hr. destruct (interp_convex q Hs Hn) as [(i & j & t & Hi & Hj & Ht & E)|[(v & Hv & ->)|(v & Hv & ->)]]; auto.
    rewrite E. pose proof (Hy i Hi). pose proof (Hy j Hj). split; nra.
  Qed.
End I.

(** Linear in the tabulated values, whatever the order of the abscissae. *)
Lemma interp_linear xs ys zs a b q : length ys = length zs ->
  interp None None xs (map (fun p => a * fst p + b * snd p) (combine ys zs)) q =
  a * interp None None xs ys q + b * interp None None xs zs q.
Proof.
  intros H. unfold interp. rewrite !at_map_lin by assumption.
  destruct (Rgt_dec _ _); [reflexivity|]. destruct (Rlt_dec _ _); [reflexivity|].
  destruct (Req_EM_T _ _); [reflexivity|]. ring.
Qed.
Lemma interp_linear0 xs ys zs a b q : length ys = length zs ->
  interp (Some 0) (Some 0) xs (map (fun p => a * fst p + b * snd p) (combine ys zs)) q =
  a * interp (Some 0) (Some 0) xs ys q + b * interp (Some 0) (Some 0) xs zs q.
Proof.
  intros H. unfold interp. rewrite !at_map_lin by assumption.
  destruct (Rgt_dec _ _); [ring|]. destruct (Rlt_dec _ _); [ring|].
  destruct (Req_EM_T _ _); [reflexivity|]. ring.
Qed.

(** ** Trapezoidal rule *)
Lemma trapz_linear xs ys zs a b : length xs = length ys -> length xs = length zs ->
  trapz xs (map (fun p => a * fst p + b * snd p) (combine ys zs)) = a * trapz xs ys + b * trapz xs zs.
Proof.
  revert ys zs. induction xs as [|x xs IH]; intros [|y ys] [|z zs] H1 H2; cbn in H1, H2; try discriminate; [cbn; ring|].
  destruct xs as [|x1 xs], ys as [|y1 ys], zs as [|z1 zs]; cbn in H1, H2; try discriminate; [cbn; ring|].
  specialize (IH (y1 :: ys) (z1 :: zs) ltac:(cbn; congruence) ltac:(cbn; congruence)).
  cbn [map combine trapz fst snd] in *. rewrite IH. field.
Qed.
Lemma trapz_scale xs ys a : trapz xs (map (fun y => a * y) ys) = a * trapz xs ys.
Proof.
  revert ys. induction xs as [|x xs IH]; intros [|y ys]; [cbn; ring|cbn; ring|cbn; destruct xs; ring|].
  destruct xs as [|x1 xs], ys as [|y1 ys]; try (cbn; ring).
  specialize (IH (y1 :: ys)). cbn [map trapz] in *. rewrite IH. field.
Qed.
Lemma ascending_tail x xs : ascending (x :: xs) -> ascending xs.
Proof. intros H i j Hij. apply (H (S i) (S j)). cbn. lia. Qed.
Lemma trapz_nonneg xs ys : ascending xs -> (forall y, In y ys -> 0 <= y) -> 0 <= trapz xs ys.
Proof.
  revert ys. induction xs as [|x xs IH]; intros ys Hs Hy; [cbn; lra|].
  destruct ys as [|y ys]; [cbn; destruct xs; lra|]. destruct xs as [|x1 xs]; [cbn; lra|]. destruct ys as [|y1 ys]; [cbn; lra|].
  specialize (IH (y1 :: ys) (ascending_tail _ _ Hs) (fun z h => Hy z (or_intror h))). cbn [trapz] in *.
  assert (x <= x1) by (apply (Hs 0%nat 1%nat); cbn; lia).
  assert (0 <= y) by (apply Hy; now left). assert (0 <= y1) by (apply Hy; right; now left).
  assert (0 <= (x1 - x) * (y1 + y)) by (apply Rmult_le_pos; lra). lra.
Qed.
