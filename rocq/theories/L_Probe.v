From Coq Require Import String List Bool Arith Reals Lia Lra.
From Verif Require Import M_Registry M_Classes L_Registry L_Registry2 M_Probe.
Import ListNotations.
Open Scope string_scope.
Open Scope list_scope.

Lemma pw_length a b : length a = length b -> length (pw a b) = length a.
Proof. intros H. unfold pw. rewrite map_length, combine_length, <- H. lia. Qed.
Lemma pw_nth a b i : length a = length b -> nth i (pw a b) 0%R = (nth i a 0 + nth i b 0)%R.
Proof.
  revert b i. induction a as [|x a IH]; intros [|y b] i H; try discriminate.
  - destruct i; cbn; lra.
  - destruct i; cbn; [reflexivity|]. apply IH. now injection H.
Qed.

(** A well-behaved evaluator: non-[Neglect] models attached under a scattering
    key return one intensity per energy. *)
Definition spectral (nE : nat) (ext : obj -> st -> option value) (s : st) : Prop :=
  forall k i o, In k scattering_keys -> dict_get k (s_models s) = Some i ->
    nth_error (s_heap s) i = Some o -> c_name (o_cls o) <> "Neglect" ->
    exists l, ext o s = Some (VSpec l) /\ length l = nE.

Lemma evaluate_scatter nE ext s k i :
  KeyInv s -> spectral nE ext s -> In k scattering_keys ->
  dict_get k (s_models s) = Some i ->
  exists l, evaluate nE ext k s = Some (VSpec l) /\ length l = nE.
Proof.
  intros [_ HK] Hsp Hk Hi. destruct (HK _ _ Hi) as (o & Ho & Hkey).
  unfold evaluate. rewrite Hi, Ho. unfold eval_obj.
  destruct (String.eqb_spec (c_name (o_cls o)) "Neglect") as [E|E].
  - rewrite Hkey. apply mem_str_In in Hk. rewrite Hk. eexists; split; [reflexivity|]. apply repeat_length.
  - eapply Hsp; eassumption.
Qed.

Lemma probe_sum nE ext s :
  KeyInv s -> spectral nE ext s ->
  (forall k, In k scattering_keys -> has_key k (s_models s) = true) ->
  exists fi ff fb fo l,
    evaluate nE ext "ionic scattering" s = Some (VSpec fi) /\
    evaluate nE ext "free-free scattering" s = Some (VSpec ff) /\
    evaluate nE ext "bound-free scattering" s = Some (VSpec fb) /\
    evaluate nE ext "free-bound scattering" s = Some (VSpec fo) /\
    probe nE ext s = Some (VSpec l) /\ length l = nE /\
    forall e, (nth e l 0 = nth e fi 0 + nth e ff 0 + nth e fb 0 + nth e fo 0)%R.
Proof.
  intros HK Hsp Hall.
  assert (HE : forall k, In k scattering_keys -> exists l, evaluate nE ext k s = Some (VSpec l) /\ length l = nE).
  { intros k Hk. pose proof (Hall k Hk) as H. apply has_key_get in H as [i Hi].
    eapply evaluate_scatter; eassumption. }
  destruct (HE "ionic scattering") as (fi & Ei & Li); [cbn; auto|].
  destruct (HE "free-free scattering") as (ff & Ef & Lf); [cbn; auto|].
  destruct (HE "bound-free scattering") as (fb & Eb & Lb); [cbn; auto|].
  destruct (HE "free-bound scattering") as (fo & Eo & Lo); [cbn; auto|].
  assert (L1 : length (pw fi ff) = nE) by (rewrite pw_length; congruence).
  assert (L2 : length (pw (pw fi ff) fb) = nE) by (rewrite pw_length; congruence).
  exists fi, ff, fb, fo, (pw (pw (pw fi ff) fb) fo). repeat split; auto.
  - unfold probe. rewrite Ei, Ef, Eb, Eo. cbn [bind].
    unfold vadd. rewrite Li, Lf, Nat.eqb_refl. cbn [bind].
    rewrite L1, Lb, Nat.eqb_refl. cbn [bind]. now rewrite L2, Lo, Nat.eqb_refl.
  - rewrite pw_length; congruence.
  - intros e. rewrite !pw_nth; congruence.
Qed.

Lemma probe_missing nE ext s k :
  In k scattering_keys -> has_key k (s_models s) = false -> probe nE ext s = None.
Proof.
  intros Hk Hm. assert (E : evaluate nE ext k s = None).
  { unfold evaluate. unfold has_key in Hm. destruct (dict_get k (s_models s)); [discriminate|reflexivity]. }
  unfold probe.
  destruct (evaluate nE ext "ionic scattering" s) as [a|] eqn:E1; [|reflexivity]. cbn.
  destruct (evaluate nE ext "free-free scattering" s) as [b|] eqn:E2; [|reflexivity]. cbn.
  destruct (evaluate nE ext "bound-free scattering" s) as [c|] eqn:E3; [|reflexivity]. cbn.
  destruct (evaluate nE ext "free-bound scattering" s) as [d|] eqn:E4; [|reflexivity].
  exfalso. destruct Hk as [<-|[<-|[<-|[<-|[]]]]]; congruence.
Qed.

Lemma neglect_zero nE ext s k i o l :
  KeyInv s -> In k scattering_keys -> dict_get k (s_models s) = Some i ->
  nth_error (s_heap s) i = Some o -> c_name (o_cls o) = "Neglect" ->
  evaluate nE ext k s = Some (VSpec l) -> forall e, nth e l 0%R = 0%R.
Proof.
  intros [_ HK] Hk Hi Ho Hn. unfold evaluate. rewrite Hi, Ho. unfold eval_obj. rewrite Hn, String.eqb_refl.
  destruct (HK _ _ Hi) as (o' & Ho' & Hkey). rewrite Ho in Ho'. injection Ho' as <-.
  rewrite Hkey. apply mem_str_In in Hk. rewrite Hk. intros H. injection H as <-. intros e.
  apply nth_repeat.
Qed.
