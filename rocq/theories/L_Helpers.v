From Coq Require Import List ListDec Bool Arith Reals Lra Lia Psatz Ranalysis Ranalysis5.
From Verif Require Import M_Helpers.
Import ListNotations.
Open Scope nat_scope.

(** ** invert_dict *)
Section DictL.
  Context {K V : Type}.
  Variable eqV : V -> V -> bool.
  Variable eqV_spec : forall x y, reflect (x = y) (eqV x y).

  Lemma put_fresh v (k : K) d : ~ In v (map fst d) -> put eqV v k d = d ++ [(v, k)].
  Proof.
    induction d as [|[v' k'] d IH]; cbn; [reflexivity|].
    intros H. destruct (eqV_spec v v') as [->|]; [exfalso; tauto|]. rewrite IH; tauto.
  Qed.
  Lemma put_length_present v (k : K) d : In v (map fst d) -> length (put eqV v k d) = length d.
  Proof.
    induction d as [|[v' k'] d IH]; cbn; [easy|].
    intros H. destruct (eqV_spec v v') as [->|Hn]; cbn; [reflexivity|]. rewrite IH; [reflexivity|].
    destruct H as [->|H]; [contradiction|assumption].
  Qed.
  Lemma put_fst v (k : K) d x : In x (map fst (put eqV v k d)) <-> x = v \/ In x (map fst d).
  Proof.
    induction d as [|[v' k'] d IH]; cbn; [intuition|].
    destruct (eqV_spec v v') as [->|Hn]; cbn; [intuition|]. rewrite IH. intuition.
  Qed.
  Lemma put_length v (k : K) d : length (put eqV v k d) <= S (length d).
  Proof.
    induction d as [|[v' k'] d IH]; cbn; [lia|]. destruct (eqV v v'); cbn; lia.
  Qed.

  Definition swap (p : K * V) : V * K := (snd p, fst p).

  Lemma swap_fold (d : list (K * V)) acc :
    NoDup (map fst acc ++ map snd d) ->
    fold_left (fun out p => put eqV (snd p) (fst p) out) d acc = acc ++ map swap d.
  Proof.
    revert acc. induction d as [|[k v] d IH]; intros acc H; cbn; [now rewrite app_nil_r|].
    cbn in H. rewrite put_fresh.
    - rewrite IH.
      + rewrite <- app_assoc. reflexivity.
      + rewrite map_app. cbn. rewrite <- app_assoc. exact H.
    - apply NoDup_remove_2 in H. intros Hin. apply H. apply in_or_app. now left.
  Qed.
  Lemma swap_all_nodup (d : list (K * V)) : NoDup (map snd d) -> swap_all eqV d = map swap d.
  Proof. intros H. unfold swap_all. now rewrite swap_fold. Qed.

  Lemma fold_length_le (d : list (K * V)) acc :
    length (fold_left (fun out p => put eqV (snd p) (fst p) out) d acc) <= length acc + length d.
  Proof.
    revert acc. induction d as [|[k v] d IH]; intros acc; cbn; [lia|].
    specialize (IH (put eqV v k acc)). pose proof (put_length v k acc). lia.
  Qed.
  Lemma nodup_snoc {A} (l : list A) x : NoDup l -> ~ In x l -> NoDup (l ++ [x]).
  Proof.
    intros Hl Hx. apply NoDup_rev in Hl. rewrite <- (rev_involutive (l ++ [x])).
    apply NoDup_rev. rewrite rev_app_distr. cbn. constructor; [|assumption].
    now rewrite <- in_rev.
  Qed.

  Lemma fold_length_lt (d : list (K * V)) acc :
    NoDup (map fst acc) -> ~ NoDup (map fst acc ++ map snd d) ->
    length (fold_left (fun out p => put eqV (snd p) (fst p) out) d acc) < length acc + length d.
  Proof.
    revert acc. induction d as [|[k v] d IH]; intros acc Hacc Hn; cbn.
    - exfalso. apply Hn. cbn. now rewrite app_nil_r.
    - assert (Hdec : {In v (map fst acc)} + {~ In v (map fst acc)}).
      { apply in_dec. intros x y. destruct (eqV_spec x y); [left|right]; assumption. }
      destruct Hdec as [Hin|Hout].
      + pose proof (fold_length_le d (put eqV v k acc)) as H.
        rewrite (put_length_present _ _ _ Hin) in H. lia.
      + rewrite (put_fresh _ _ _ Hout).
        assert (H : length (fold_left (fun out p => put eqV (snd p) (fst p) out) d (acc ++ [(v, k)]))
                    < length (acc ++ [(v, k)]) + length d).
        { apply IH.
          - rewrite map_app. cbn. now apply nodup_snoc.
          - rewrite map_app. cbn. rewrite <- app_assoc. exact Hn. }
        rewrite app_length in H. cbn in H. lia.
  Qed.

  Lemma NoDup_dec_V (l : list V) : {NoDup l} + {~ NoDup l}.
  Proof. apply ListDec.NoDup_dec. intros x y. destruct (eqV_spec x y); [left|right]; assumption. Qed.

  Lemma invert_some (d : list (K * V)) : NoDup (map snd d) -> invert_dict eqV d = Some (map swap d).
  Proof.
    intros H. unfold invert_dict. rewrite swap_all_nodup by assumption.
    now rewrite map_length, Nat.eqb_refl.
  Qed.
  Lemma invert_none (d : list (K * V)) : ~ NoDup (map snd d) -> invert_dict eqV d = None.
  Proof.
    intros H. unfold invert_dict. pose proof (fold_length_lt d [] (NoDup_nil _) H) as L.
    fold (swap_all eqV d) in L. cbn in L.
    destruct (Nat.eqb_spec (length d) (length (swap_all eqV d))); [lia|reflexivity].
  Qed.
  Lemma invert_iff (d : list (K * V)) d' : invert_dict eqV d = Some d' <-> NoDup (map snd d) /\ d' = map swap d.
  Proof.
    destruct (NoDup_dec_V (map snd d)) as [H|H].
    - rewrite invert_some by assumption. split; [intros E; injection E as <-; auto|intros [_ ->]; auto].
    - rewrite invert_none by assumption. split; [discriminate|tauto].
  Qed.
End DictL.

Lemma map_swap_swap {K V} (d : list (K * V)) : map swap (map swap d) = d.
Proof. rewrite map_map. rewrite <- map_id. apply map_ext. now intros []. Qed.

(** ** while_loop *)
Lemma while_inv {S} (I : S -> Prop) cond body :
  (forall s, I s -> cond s = true -> I (body s)) ->
  forall fuel s s', I s -> while_loop fuel cond body s = Some s' -> I s' /\ cond s' = false.
Proof.
  intros Hb. induction fuel as [|n IH]; intros s s' Hs; cbn; [discriminate|].
  destruct (cond s) eqn:E; [|intros H; injection H as <-; auto].
  apply IH. auto.
Qed.
Lemma while_term {S} (m : S -> nat) cond body :
  (forall s, cond s = true -> m (body s) < m s) ->
  forall fuel s, m s < fuel -> exists s', while_loop fuel cond body s = Some s'.
Proof.
  intros Hm. induction fuel as [|n IH]; intros s Hs; [lia|]. cbn.
  destruct (cond s) eqn:E; [|eauto]. apply IH. specialize (Hm _ E). lia.
Qed.

Open Scope R_scope.

(** ** sign *)
Lemma sign_cases x : (x < 0 /\ sign x = -1) \/ (x = 0 /\ sign x = 0) \/ (x > 0 /\ sign x = 1).
Proof.
  unfold sign. destruct (Rlt_dec x 0); [auto|]. destruct (Rgt_dec x 0); [auto|].
  right; left. split; lra.
Qed.

Lemma ivt_sign (f : R -> R) lo hi :
  lo <= hi -> (forall x, lo <= x <= hi -> continuity_pt f x) ->
  sign (f lo) <> sign (f hi) -> exists x, lo <= x <= hi /\ f x = 0.
Proof.
  intros Hle Hc Hs.
  destruct (sign_cases (f lo)) as [[H1 E1]|[[H1 E1]|[H1 E1]]].
  2:{ exists lo. split; [lra|assumption]. }
  - destruct (sign_cases (f hi)) as [[H2 E2]|[[H2 E2]|[H2 E2]]].
    + congruence.
    + exists hi. split; [lra|assumption].
    + destruct (Rle_lt_or_eq_dec _ _ Hle) as [Hlt|He]; [|subst; lra].
      destruct (Ranalysis5.IVT_interv f lo hi) as (z & Hz & Ez); auto. eauto.
  - destruct (sign_cases (f hi)) as [[H2 E2]|[[H2 E2]|[H2 E2]]].
    + destruct (Rle_lt_or_eq_dec _ _ Hle) as [Hlt|He]; [|subst; lra].
      destruct (Ranalysis5.IVT_interv (fun x => - f x) lo hi) as (z & Hz & Ez); auto; try lra.
      * intros a Ha. apply continuity_pt_opp. auto.
      * exists z. split; [assumption|lra].
    + exists hi. split; [lra|assumption].
    + congruence.
Qed.

Section BisL.
  Variable func : R -> R.
  Variables (tol : R) (max_iter min_iter : nat).
  Notation cond := (bis_cond func tol max_iter min_iter).
  Notation body := (bis_body func).

  Definition BInv (a b : R) (s : R * R * nat) : Prop :=
    let '(p, n, i) := s in
    sign (func p) <> sign (func n) /\
    Rabs (p - n) = Rabs (b - a) / 2 ^ i /\
    Rmin a b <= p <= Rmax a b /\ Rmin a b <= n <= Rmax a b.

  Lemma abs_half x : Rabs (x / 2) = Rabs x / 2.
  Proof. unfold Rdiv. rewrite Rabs_mult. f_equal. apply Rabs_pos_eq. lra. Qed.

  Lemma BInv_body a b s : BInv a b s -> BInv a b (body s).
  Proof.
    destruct s as [[p n] i]. unfold BInv, bis_body. intros (Hs & Hw & Hp & Hn).
    unfold reqb. destruct (Req_EM_T (sign (func ((p + n) / 2))) (sign (func n))) as [E|E].
    - split; [|split; [|lra]].
      + rewrite E. exact Hs.
      + replace (p - (p + n) / 2) with ((p - n) / 2) by lra. rewrite abs_half, Hw. cbn [pow].
        field. apply pow_nonzero. lra.
    - split; [|split; [|lra]].
      + intros E'. apply E. symmetry. exact E'.
      + replace (n - (p + n) / 2) with (- ((p - n) / 2)) by lra. rewrite Rabs_Ropp, abs_half, Hw. cbn [pow].
        field. apply pow_nonzero. lra.
  Qed.

  Lemma BInv_init a b : sign (func a) <> sign (func b) -> BInv a b (a, b, O).
  Proof.
    intros H. unfold BInv. split; [assumption|]. split.
    - cbn [pow]. rewrite Rabs_minus_sym. field.
    - unfold Rmin, Rmax. destruct (Rle_dec a b); lra.
  Qed.

  Lemma bis_terminates a b fuel :
    (Nat.max max_iter min_iter < fuel)%nat -> exists s, bisection_loop func tol max_iter min_iter fuel a b = Some s.
  Proof.
    intros H. unfold bisection_loop.
    apply while_term with (m := fun s => (Nat.max max_iter min_iter - snd s)%nat); [|cbn; lia].
    intros [[p n] i]. unfold bis_cond, bis_body. cbn [snd]. intros E.
    apply orb_prop in E as [E|E].
    - apply andb_prop in E as [E _]. apply andb_prop in E as [E _]. apply Nat.ltb_lt in E. lia.
    - apply Nat.ltb_lt in E. lia.
  Qed.

  Lemma bis_count a b fuel p n i :
    bisection_loop func tol max_iter min_iter fuel a b = Some (p, n, i) ->
    (min_iter <= i <= Nat.max max_iter min_iter)%nat.
  Proof.
    intros H.
    destruct (while_inv (fun s : R * R * nat => (snd s <= Nat.max max_iter min_iter)%nat) cond body) with (3 := H) as [H1 H2].
    - intros [[p' n'] i'] _ E. cbn in *. apply orb_prop in E as [E|E].
      + apply andb_prop in E as [E _]. apply andb_prop in E as [E _]. apply Nat.ltb_lt in E. lia.
      + apply Nat.ltb_lt in E. lia.
    - cbn. lia.
    - cbn in H1, H2. apply orb_false_elim in H2 as [_ H2]. apply Nat.ltb_ge in H2. lia.
  Qed.

  Lemma bis_post a b fuel p n i :
    sign (func a) <> sign (func b) ->
    bisection_loop func tol max_iter min_iter fuel a b = Some (p, n, i) ->
    BInv a b (p, n, i) /\
    (Rabs (func n) <= tol \/ Rabs (p - n) <= tol \/ (max_iter <= i)%nat).
  Proof.
    intros Hs H.
    destruct (while_inv (BInv a b) cond body) with (3 := H) as [H1 H2].
    - intros s HI _. now apply BInv_body.
    - now apply BInv_init.
    - split; [exact H1|]. cbn in H2. apply orb_false_elim in H2 as [H2 _].
      apply andb_false_elim in H2 as [H2|H2].
      + apply andb_false_elim in H2 as [H2|H2].
        * apply Nat.ltb_ge in H2. auto.
        * unfold rgtb in H2. destruct (Rgt_dec _ _); [discriminate|]. left. lra.
      + unfold rgtb in H2. destruct (Rgt_dec _ _); [discriminate|]. right; left. lra.
  Qed.

  Lemma bis_root a b p n i :
    BInv a b (p, n, i) ->
    (forall x, Rmin a b <= x <= Rmax a b -> continuity_pt func x) ->
    exists x, Rmin a b <= x <= Rmax a b /\ func x = 0 /\ Rabs (n - x) <= Rabs (b - a) / 2 ^ i.
  Proof.
    intros (Hs & Hw & Hp & Hn) Hc.
    destruct (Rle_dec p n) as [Hle|Hle].
    - destruct (ivt_sign func p n) as (x & Hx & E); auto.
      + intros x Hx. apply Hc. lra.
      + exists x. split; [lra|]. split; [assumption|]. rewrite <- Hw.
        rewrite (Rabs_left1 (p - n)) by lra. rewrite Rabs_pos_eq by lra. lra.
    - destruct (ivt_sign func n p) as (x & Hx & E); auto; try lra.
      + intros x Hx. apply Hc. lra.
      + exists x. split; [lra|]. split; [assumption|]. rewrite <- Hw.
        rewrite (Rabs_pos_eq (p - n)) by lra. rewrite Rabs_left1 by lra. lra.
  Qed.
End BisL.

(** ** secant *)
Lemma clip_bounds x lo hi : lo <= hi -> lo <= clip x lo hi <= hi.
Proof.
  intros H. unfold clip. pose proof (Rmax_r x lo). pose proof (Rmin_r (Rmax x lo) hi).
  split; [|assumption]. apply Rmin_glb; assumption.
Qed.

Lemma secant_spec f xmin xmax tol max_iter fuel :
  xmin <= xmax -> (max_iter < fuel)%nat ->
  exists x i, secant f xmin xmax tol max_iter fuel = Some (x, i) /\
    xmin <= x <= xmax /\ (i <= max_iter)%nat.
Proof.
  intros Hle Hf. unfold secant.
  destruct (while_term (fun s : R * R * nat => (max_iter - snd s)%nat) (sec_cond f tol max_iter)
              (sec_body f xmin xmax)) with (fuel := fuel) (s := ((xmin + xmax) / 2, xmax, O)) as [[[x0 x1] i] E].
  - intros [[x0 x1] i]. cbn. intros E. apply andb_prop in E as [_ E]. apply Nat.ltb_lt in E. lia.
  - cbn. lia.
  - rewrite E. exists x1, i. split; [reflexivity|].
    destruct (while_inv (fun s : R * R * nat => let '(_, x1, i) := s in xmin <= x1 <= xmax /\ (i <= max_iter)%nat)
       (sec_cond f tol max_iter) (sec_body f xmin xmax)) with (3 := E) as [H1 _].
    + intros [[y0 y1] j] [Hy Hj] Ec. cbn in *. apply andb_prop in Ec as [_ Ec]. apply Nat.ltb_lt in Ec.
      split; [now apply clip_bounds|lia].
    + split; [lra|lia].
    + exact H1.
Qed.

(** If the loop stops before [max_iter], the last two slopes agree within [tol]. *)
Lemma secant_post f xmin xmax tol max_iter fuel p x i :
  while_loop fuel (sec_cond f tol max_iter) (sec_body f xmin xmax) ((xmin + xmax) / 2, xmax, O) = Some (p, x, i) ->
  (i < max_iter)%nat -> Rabs (f p - f x) < tol.
Proof.
  intros E Hi.
  destruct (while_inv (fun _ : R * R * nat => True) (sec_cond f tol max_iter) (sec_body f xmin xmax)) with (3 := E) as [_ H]; auto.
  cbn in H. apply andb_false_elim in H as [H|H].
  - unfold rgeb in H. destruct (Rge_dec _ _); [discriminate|]. lra.
  - apply Nat.ltb_ge in H. lia.
Qed.

(** ** cramer_solve *)
(** Specification: Laplace expansion of the determinant along the first row. *)
Definition minor (A : nat -> nat -> R) (j : nat) : nat -> nat -> R :=
  fun r c => A (S r) (if Nat.ltb c j then c else S c).
Fixpoint sumn (n : nat) (f : nat -> R) : R :=
  match n with O => 0 | S m => sumn m f + f m end.
Fixpoint det (n : nat) (A : nat -> nat -> R) : R :=
  match n with
  | O => 1
  | S m => sumn n (fun j => (-1) ^ j * A O j * det m (minor A j))
  end.
(** [x] solves [A x = b] for size [n]. *)
Definition solves (n : nat) (A : nat -> nat -> R) (b : nat -> R) (x : list R) : Prop :=
  length x = n /\ forall i, (i < n)%nat -> sumn n (fun j => A i j * nth j x 0) = b i.

Lemma det_cramer2 A : det 2 A = A 0%nat 0%nat * A 1%nat 1%nat - A 0%nat 1%nat * A 1%nat 0%nat.
Proof. cbn. unfold minor. cbn. ring. Qed.

Lemma cramer1_ok A b : det 1 A <> 0 -> exists x, cramer1 A b = Some x /\ solves 1 A b x.
Proof.
  intros H. unfold cramer1. cbn [all_some]. unfold divo.
  assert (H' : A 0%nat 0%nat <> 0) by (intros E; apply H; cbn; rewrite E; ring).
  destruct (Req_EM_T (A 0%nat 0%nat) 0); [contradiction|]. eexists; split; [reflexivity|].
  split; [reflexivity|]. intros i Hi. destruct i; [|lia]. cbn. field. assumption.
Qed.

Lemma cramer2_ok A b : det 2 A <> 0 -> exists x, cramer2 A b = Some x /\ solves 2 A b x.
Proof.
  intros H. unfold cramer2. cbv zeta.
  set (d := A 0%nat 0%nat * A 1%nat 1%nat - A 0%nat 1%nat * A 1%nat 0%nat).
  assert (H' : d <> 0) by (intros E; apply H; rewrite det_cramer2; exact E).
  unfold divo. destruct (Req_EM_T d 0); [contradiction|]. cbn [all_some].
  eexists; split; [reflexivity|]. split; [reflexivity|]. intros i Hi.
  do 2 (destruct i as [|i]; [cbn; unfold d; field; exact H'|]). lia.
Qed.

Lemma det3_eq A : det 3 A =
  A 0%nat 0%nat * (A 1%nat 1%nat * A 2%nat 2%nat - A 1%nat 2%nat * A 2%nat 1%nat) +
  A 0%nat 1%nat * - (A 1%nat 0%nat * A 2%nat 2%nat - A 1%nat 2%nat * A 2%nat 0%nat) +
  A 0%nat 2%nat * (A 1%nat 0%nat * A 2%nat 1%nat - A 1%nat 1%nat * A 2%nat 0%nat).
Proof. cbn. unfold minor. cbn. ring. Qed.

Lemma cramer3_ok A b : det 3 A <> 0 -> exists x, cramer3 A b = Some x /\ solves 3 A b x.
Proof.
  intros H. unfold cramer3. cbv zeta. rewrite det3_eq in H.
  match goal with |- context[divo _ ?d] => set (dd := d) in * end.
  unfold divo. destruct (Req_EM_T dd 0); [contradiction|]. cbn [all_some].
  eexists; split; [reflexivity|]. split; [reflexivity|]. intros i Hi.
  do 3 (destruct i as [|i]; [cbn; unfold dd; field; exact H|]). lia.
Qed.

Lemma det4_eq A b : det 4 A = fst (cramer4_terms A b).
Proof. unfold cramer4_terms. cbv zeta. cbn [fst]. cbn. unfold minor. cbn. ring. Qed.

Lemma cramer4_rows A b :
  forall i, (i < 4)%nat ->
  sumn 4 (fun j => A i j * nth j (nums4 A b) 0) = b i * det4 A b.
Proof.
  intros i Hi. unfold nums4, det4, cramer4_terms. cbv zeta. cbn [fst].
  do 4 (destruct i as [|i]; [cbn; ring|]). lia.
Qed.

Lemma cramer4_ok A b : det 4 A <> 0 -> exists x, cramer4 A b = Some x /\ solves 4 A b x.
Proof.
  intros H. rewrite (det4_eq A b) in H. pose proof (cramer4_rows A b) as HR.
  unfold nums4, det4 in HR. unfold cramer4.
  destruct (cramer4_terms A b) as [d [[[n0 n1] n2] n3]]. cbn [fst] in *.
  unfold divo. destruct (Req_EM_T d 0); [contradiction|]. cbn [all_some].
  eexists; split; [reflexivity|]. split; [reflexivity|]. intros i Hi.
  specialize (HR i Hi). cbn in *.
  apply (Rmult_eq_reg_r d); [|assumption]. rewrite <- HR. field. assumption.
Qed.

Lemma cramer_all solve N_max N A b :
  (1 <= N <= 4)%nat -> (N <= N_max)%nat -> det N A <> 0 ->
  exists x, cramer_solve solve N_max N A b = Some x /\ solves N A b x.
Proof.
  intros HN Hm Hd. unfold cramer_solve.
  destruct (Nat.ltb_spec N_max N); [lia|].
  destruct N as [|[|[|[|[|N]]]]]; try lia.
  - now apply cramer1_ok.
  - now apply cramer2_ok.
  - now apply cramer3_ok.
  - now apply cramer4_ok.
Qed.

(** A zero determinant is reported (inf/nan in the code). *)
Lemma cramer_singular solve N_max N A b :
  (1 <= N <= 4)%nat -> (N <= N_max)%nat -> det N A = 0 ->
  cramer_solve solve N_max N A b = None.
Proof.
  intros HN Hm Hd. unfold cramer_solve.
  destruct (Nat.ltb_spec N_max N); [lia|].
  destruct N as [|[|[|[|[|N]]]]]; try lia.
  - unfold cramer1, divo. cbn in Hd. destruct (Req_EM_T (A 0%nat 0%nat) 0) as [|n]; [reflexivity|].
    exfalso. apply n. rewrite <- Hd. ring.
  - unfold cramer2, divo. cbv zeta. rewrite det_cramer2 in Hd. rewrite Hd.
    destruct (Req_EM_T 0 0); [reflexivity|congruence].
  - unfold cramer3, divo. cbv zeta. rewrite det3_eq in Hd. rewrite Hd.
    destruct (Req_EM_T 0 0); [reflexivity|congruence].
  - rewrite (det4_eq A b) in Hd. unfold cramer4.
    destruct (cramer4_terms A b) as [d [[[n0 n1] n2] n3]]. cbn [fst] in Hd. subst d.
    unfold divo. destruct (Req_EM_T 0 0); [reflexivity|congruence].
Qed.

(** The solution returned is the only one. *)
Lemma cramer_unique solve N_max N A b y :
  (1 <= N <= 4)%nat -> (N <= N_max)%nat -> det N A <> 0 -> solves N A b y ->
  cramer_solve solve N_max N A b = Some y.
Proof.
  intros HN Hm Hd [Hl Hy]. unfold cramer_solve.
  destruct (Nat.ltb_spec N_max N); [lia|].
  destruct N as [|[|[|[|[|N]]]]]; try lia.
  - destruct y as [|y0 [|? ?]]; try discriminate.
    pose proof (Hy 0%nat ltac:(lia)) as E0. cbn in E0, Hd.
    unfold cramer1, divo. destruct (Req_EM_T (A 0%nat 0%nat) 0) as [E|E].
    { exfalso. apply Hd. rewrite E. ring. }
    cbn. do 2 f_equal. rewrite <- E0. field. assumption.
  - destruct y as [|y0 [|y1 [|? ?]]]; try discriminate.
    pose proof (Hy 0%nat ltac:(lia)) as E0. pose proof (Hy 1%nat ltac:(lia)) as E1. cbn in E0, E1.
    rewrite det_cramer2 in Hd. unfold cramer2, divo. cbv zeta.
    match goal with |- context[Req_EM_T ?d 0] => destruct (Req_EM_T d 0) as [E|E] end; [contradiction|].
    cbn. f_equal. rewrite <- E0, <- E1. repeat f_equal; field; assumption.
  - destruct y as [|y0 [|y1 [|y2 [|? ?]]]]; try discriminate.
    pose proof (Hy 0%nat ltac:(lia)) as E0. pose proof (Hy 1%nat ltac:(lia)) as E1.
    pose proof (Hy 2%nat ltac:(lia)) as E2. cbn in E0, E1, E2.
    rewrite det3_eq in Hd. unfold cramer3, divo. cbv zeta.
    match goal with |- context[Req_EM_T ?d 0] => destruct (Req_EM_T d 0) as [E|E] end; [contradiction|].
    cbn. f_equal. rewrite <- E0, <- E1, <- E2. repeat f_equal; field; assumption.
  - destruct y as [|y0 [|y1 [|y2 [|y3 [|? ?]]]]]; try discriminate.
    pose proof (Hy 0%nat ltac:(lia)) as E0. pose proof (Hy 1%nat ltac:(lia)) as E1.
    pose proof (Hy 2%nat ltac:(lia)) as E2. pose proof (Hy 3%nat ltac:(lia)) as E3. cbn in E0, E1, E2, E3.
    assert (HN4 : nums4 A b = map (fun v => v * det4 A b) [y0; y1; y2; y3]).
    { unfold nums4, det4, cramer4_terms. cbv zeta. cbn [map fst].
      rewrite <- E0, <- E1, <- E2, <- E3. do 4 (apply (f_equal2 (@cons R)); [ring|]). reflexivity. }
    rewrite (det4_eq A b) in Hd. unfold nums4, det4 in HN4. unfold cramer4.
    destruct (cramer4_terms A b) as [d [[[n0 n1] n2] n3]]. cbn [fst map] in *.
    injection HN4 as -> -> -> ->.
    unfold divo. destruct (Req_EM_T d 0); [contradiction|]. cbn. f_equal. repeat f_equal; field; assumption.
Qed.

(** Explicit inner step of the secant loop never divides by zero. *)
Lemma secant_no_zero_division f tol max_iter x0 x1 i :
  tol > 0 -> sec_cond f tol max_iter (x0, x1, i) = true -> f x1 - f x0 <> 0.
Proof.
  intros Ht E. cbn in E. apply andb_prop in E as [E _]. unfold rgeb in E.
  destruct (Rge_dec _ _) as [H|H]; [|discriminate]. intros Z.
  replace (f x0 - f x1) with 0 in H by lra. rewrite Rabs_R0 in H. lra.
Qed.
