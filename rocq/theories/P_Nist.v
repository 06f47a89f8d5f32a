(** Theorems about the reader of level tables. *)
From Coq Require Import Reals String Ascii List Bool Lia Lra Decimal DecimalNat DecimalString.
From Verif Require Import M_Nist.
Import ListNotations.
Open Scope string_scope.
Open Scope list_scope.

(** ** What the expression says *)
Fixpoint all_digits (s : string) : bool := match s with EmptyString => true | String c s => is_digit c && all_digits s end.
Definition number (s : string) : Prop := s <> "" /\ all_digits s = true.
(** [s] is an occurrence of the expression with the groups g and e or e.f, followed by anything *)
Definition occurs_here (s g e f : string) : Prop :=
  exists post, number g /\ number e /\
    ((f = "" /\ s = (",term," ++ g ++ ",""=""""" ++ e ++ """""""" ++ post)%string) \/
     (number f /\ s = (",term," ++ g ++ ",""=""""" ++ e ++ "." ++ f ++ """""""" ++ post)%string)).

Lemma app_assoc_s a b c : ((a ++ b) ++ c = a ++ (b ++ c))%string.
Proof. induction a as [|x a IH]; cbn; [reflexivity|]. now rewrite IH. Qed.
Lemma app_nil_s a : (a ++ "" = a)%string.
Proof. induction a as [|x a IH]; cbn; [reflexivity|]. now rewrite IH. Qed.
Lemma eat_app p s : eat p (p ++ s)%string = Some s.
Proof. induction p as [|a p IH]; cbn; [reflexivity|]. now rewrite Ascii.eqb_refl. Qed.
Lemma eat_some p s t : eat p s = Some t -> s = (p ++ t)%string.
Proof.
  revert s. induction p as [|a p IH]; intros s H; cbn in *; [now injection H|]. destruct s as [|b s]; [discriminate|].
  destruct (Ascii.eqb_spec a b); [|discriminate]. subst. f_equal. now apply IH.
Qed.
Definition no_digit (s : string) : Prop := match s with EmptyString => True | String c _ => is_digit c = false end.
Lemma span_app d s : all_digits d = true -> no_digit s -> span (d ++ s)%string = (d, s).
Proof.
  intros Hd Hs. induction d as [|c d IH]; cbn in *.
  - destruct s as [|c s]; [reflexivity|]. cbn in Hs |- *. now rewrite Hs.
  - apply andb_true_iff in Hd. destruct Hd as [-> Hd]. now rewrite IH.
Qed.
Lemma span_spec s : s = (fst (span s) ++ snd (span s))%string /\ all_digits (fst (span s)) = true.
Proof.
  induction s as [|c s [IH1 IH2]]; [now split|]. cbn. destruct (is_digit c) eqn:E; [|now split].
  destruct (span s) as [d r]. cbn in *. rewrite E, IH2. split; [now rewrite IH1 at 1|reflexivity].
Qed.
Lemma digits_app d s : number d -> no_digit s -> digits (d ++ s)%string = Some (d, s).
Proof. intros [Hn Hd] Hs. unfold digits. rewrite span_app by assumption. now destruct d. Qed.
Lemma digits_some s d r : digits s = Some (d, r) -> s = (d ++ r)%string /\ number d.
Proof.
  unfold digits. destruct (span_spec s) as [A B]. destruct (span s) as [d' r']. cbn in *.
  destruct d'; [discriminate|]. intros H. injection H as <- <-. split; [assumption|split; [easy|assumption]].
Qed.
Lemma match_iff s g e f : match_here s = Some (g, (e, f)) <-> occurs_here s g e f.
Proof.
  split.
  - unfold match_here. destruct (eat ",term," s) as [s1|] eqn:E1; cbn [obind]; [|discriminate]. apply eat_some in E1.
    destruct (digits s1) as [[g' s2]|] eqn:E2; cbn [obind]; [|discriminate]. apply digits_some in E2. destruct E2 as [E2 G2].
    destruct (eat ",""=""""" s2) as [s3|] eqn:E3; cbn [obind]; [|discriminate]. apply eat_some in E3.
    destruct (digits s3) as [[e' s4]|] eqn:E4; cbn [obind]; [|discriminate]. apply digits_some in E4. destruct E4 as [E4 G4].
    destruct (eat "." s4) as [s5|] eqn:E5; cbn [obind]; [apply eat_some in E5; destruct (digits s5) as [[f' s6]|] eqn:E6|].
    + apply digits_some in E6. destruct E6 as [E6 G6]. destruct (eat """""""" s6) as [post|] eqn:E7; cbn [obind]; [|discriminate].
      apply eat_some in E7. intros H. injection H as -> -> ->. exists post. repeat split; try apply G2; try apply G4. right.
      split; [assumption|]. now subst.
    + destruct (eat """""""" s4) as [post|] eqn:E7; cbn [obind]; [|discriminate]. apply eat_some in E7. subst s4. discriminate.
    + destruct (eat """""""" s4) as [post|] eqn:E7; cbn [obind]; [|discriminate]. apply eat_some in E7.
      intros H. injection H as -> -> <-. exists post. repeat split; try apply G2; try apply G4. left. split; [reflexivity|]. now subst.
  - intros (post & Hg & He & [[-> ->]|[Hf ->]]); unfold match_here; rewrite eat_app; cbn [obind].
    + rewrite digits_app by (try assumption; reflexivity). cbn [obind]. rewrite eat_app. cbn [obind].
      rewrite digits_app by (try assumption; reflexivity). cbn [obind]. cbn [append eat]. reflexivity.
    + rewrite digits_app by (try assumption; reflexivity). cbn [obind]. rewrite eat_app. cbn [obind].
      rewrite digits_app by (try assumption; reflexivity). cbn [obind]. rewrite eat_app. cbn [obind].
      rewrite digits_app by (try assumption; reflexivity). cbn [obind]. rewrite eat_app. reflexivity.
Qed.
(** The search finds the leftmost occurrence, and finds one whenever there is one. *)
Theorem C136_search : forall s g e f,
  search s = Some (g, (e, f)) <->
  exists pre t, s = (pre ++ t)%string /\ occurs_here t g e f /\
    forall pre' t', s = (pre' ++ t')%string -> (String.length pre' < String.length pre)%nat -> ~ exists g' e' f', occurs_here t' g' e' f'.
Proof.
  intros s g e f. split.
  - revert g e f. induction s as [|c s IH]; intros g e f.
    + discriminate.
    + cbn [search]. destruct (match_here (String c s)) as [[g0 [e0 f0]]|] eqn:E.
      * intros H. injection H as -> -> ->. apply match_iff in E. exists "", (String c s). split; [reflexivity|]. split; [exact E|].
        intros pre' t' _ Hl. cbn in Hl. lia.
      * intros H. destruct (IH g e f H) as (pre & t & -> & Ho & Hm). exists (String c pre), t. split; [reflexivity|]. split; [exact Ho|].
        intros [|c' pre'] t' Et Hl (g' & e' & f' & Ho').
        -- cbn in Et. subst t'. apply match_iff in Ho'. rewrite Ho' in E. discriminate.
        -- cbn in Et, Hl. injection Et as -> Et. apply (Hm pre' t' Et ltac:(lia)). eauto.
  - intros (pre & t & -> & Ho & Hm). revert Hm. induction pre as [|c pre IH]; intros Hm.
    + cbn [append]. apply match_iff in Ho. destruct t as [|c t]; [discriminate|]. cbn [search]. now rewrite Ho.
    + cbn [append search]. destruct (match_here (String c (pre ++ t))) as [[g0 [e0 f0]]|] eqn:E.
      * exfalso. apply (Hm "" (String c (pre ++ t))); [reflexivity|cbn; lia|]. exists g0, e0, f0. now apply match_iff.
      * apply IH. intros pre' t' Et Hl. apply (Hm (String c pre') t'); [cbn; now rewrite Et|cbn; lia].
Qed.
Print Assumptions C136_search.

(** ** Reading back a printed table *)
(** a decimal numeral *)
Definition show (n : nat) : string := NilEmpty.string_of_uint (Nat.to_uint n).
Lemma dec_of_uint u n : dec_acc n (NilEmpty.string_of_uint u) = Nat.of_uint_acc u n.
Proof.
  revert n. induction u; intros n; cbn [NilEmpty.string_of_uint dec_acc Nat.of_uint_acc]; [reflexivity|..];
    rewrite IHu; f_equal; rewrite Nat.tail_mul_spec; unfold digit_val; cbn; lia.
Qed.
Lemma dec_show n : dec (show n) = n.
Proof. unfold dec, show. rewrite dec_of_uint. apply (Unsigned.of_to n). Qed.
Lemma show_digits u : all_digits (NilEmpty.string_of_uint u) = true.
Proof. induction u; cbn; auto. Qed.
Lemma show_number n : number (show n).
Proof.
  split; [|apply show_digits]. unfold show. intros H. assert (E : dec_acc 0 (NilEmpty.string_of_uint (Nat.to_uint n)) = n) by apply dec_show.
  rewrite H in E. cbn in E. subst n. discriminate.
Qed.
Lemma dec_app n a b : dec_acc n (a ++ b)%string = dec_acc (dec_acc n a) b.
Proof. revert n. induction a as [|c a IH]; intros n; cbn; [reflexivity|apply IH]. Qed.
Lemma dec_acc_add n s : dec_acc n s = (n * 10 ^ String.length s + dec s)%nat.
Proof.
  unfold dec. revert n. induction s as [|c s IH]; intros n; cbn [dec_acc String.length]; [cbn; lia|].
  rewrite IH, (IH (10 * 0 + digit_val c)%nat). cbn [Nat.pow]. lia.
Qed.
Lemma decimal_value e f : decimal e f = (INR (dec e) + INR (dec f) / 10 ^ String.length f)%R.
Proof.
  unfold decimal, dec at 1. rewrite dec_app, dec_acc_add, plus_INR, mult_INR, pow_INR. fold (dec e).
  replace (INR 10) with 10%R by (cbn; lra). field. apply pow_nonzero. lra.
Qed.
Fixpoint free (c : ascii) (s : string) : bool :=
  match s with EmptyString => true | String a s => negb (Ascii.eqb a c) && free c s end.
Lemma no_match_head c s : Ascii.eqb c "," = false -> match_here (String c s) = None.
Proof. intros H. unfold match_here. cbn [eat]. rewrite Ascii.eqb_sym in H. now rewrite H. Qed.
Lemma search_skip a s : free "," a = true -> search (a ++ s)%string = search s.
Proof.
  induction a as [|c a IH]; cbn [free append]; [reflexivity|]. rewrite andb_true_iff, negb_true_iff. intros [Hc Ha].
  cbn [search]. rewrite no_match_head by assumption. now apply IH.
Qed.
Lemma search_free a : free "," a = true -> search a = None.
Proof. intros H. rewrite <- (app_nil_s a), search_skip by assumption. reflexivity. Qed.
(** a row of the table: a level with its configuration, weight, energy (whole part and
    the digits behind the point) and remainder, or a line without the expression *)
Inductive row :=
| Level (conf : string) (g whole : nat) (frac post : string)
| Other (line : string).
Definition row_line (r : row) : string :=
  match r with
  | Level conf g w f post =>
      (conf ++ ",term," ++ show g ++ ",""=""""" ++ show w ++ (match f with EmptyString => "" | _ => "." ++ f end) ++ """""""" ++ post)%string
  | Other s => s
  end.
Definition row_ok (r : row) : Prop :=
  match r with
  | Level conf _ _ f _ => free "," conf = true /\ all_digits f = true
  | Other s => forall pre t g e f, s = (pre ++ t)%string -> ~ occurs_here t g e f
  end.
(** A printed table is read back exactly: the statistical weights and the energies of
    the levels, in order, and nothing from other lines. *)
Theorem C136_round_trip : forall rows, (forall r, In r rows -> row_ok r) ->
  read_nist_file (map row_line rows) =
  (flat_map (fun r => match r with Level _ g _ _ _ => [g] | Other _ => [] end) rows,
   flat_map (fun r => match r with
                      | Level _ _ w f _ => [(INR w + INR (dec f) / 10 ^ String.length f)%R]
                      | Other _ => [] end) rows).
Proof.
  intros rows H. unfold read_nist_file.
  assert (HL : flat_map (fun l => match search l with Some m => [m] | None => [] end) (map row_line rows)
               = flat_map (fun r => match r with Level _ g w f _ => [(show g, (show w, f))] | Other _ => [] end) rows).
  { induction rows as [|r rows IH]; [reflexivity|]. cbn [map flat_map]. rewrite IH by (intros r' Hr; apply H; now right). f_equal.
    specialize (H r ltac:(now left)). destruct r as [conf g w f post|s]; cbn [row_line row_ok] in *.
    - destruct H as [Hc Hf]. rewrite search_skip by assumption.
      assert (E : match_here (",term," ++ show g ++ ",""=""""" ++ show w ++ (match f with EmptyString => "" | _ => "." ++ f end) ++ """""""" ++ post)%string = Some (show g, (show w, f))).
      { apply match_iff. exists post. split; [apply show_number|]. split; [apply show_number|]. destruct f as [|c f].
        - left. now split.
        - right. split; [now split|]. rewrite app_assoc_s. reflexivity. }
      change (",term," ++ ?z)%string with (String "," ("term," ++ z))%string in E |- *. cbn [search]. rewrite E. reflexivity.
    - destruct (search s) as [[g [e f]]|] eqn:E; [|reflexivity]. exfalso. apply C136_search in E. destruct E as (pre & t & Es & Ho & _).
      now apply (H pre t g e f Es). }
  rewrite HL. clear. f_equal.
  - induction rows as [|[conf g w f post|s] rows IH]; [reflexivity| |exact IH]. cbn [flat_map]. rewrite map_app, IH. cbn [map fst]. now rewrite dec_show.
  - induction rows as [|[conf g w f post|s] rows IH]; [reflexivity| |exact IH]. cbn [flat_map]. rewrite map_app, IH. cbn [map fst snd]. now rewrite decimal_value, dec_show.
Qed.
Print Assumptions C136_round_trip.
(** There are as many weights as energies, whatever the file. *)
Theorem C136_lengths : forall lines, length (fst (read_nist_file lines)) = length (snd (read_nist_file lines)).
Proof. intros lines. unfold read_nist_file. cbn. now rewrite !map_length. Qed.
Print Assumptions C136_lengths.
(** A level whose energy is put in brackets, or is preceded by any other mark that is not a digit, is left out. *)
Theorem C136_marked_levels : forall conf g c rest, free "," conf = true -> is_digit c = false -> free "," rest = true -> Ascii.eqb c "," = false ->
  search (conf ++ ",term," ++ show g ++ ",""=""""" ++ String c rest)%string = None.
Proof.
  intros conf g c rest Hc Hd Hr Hcc. rewrite search_skip by assumption.
  assert (E : match_here (",term," ++ show g ++ ",""=""""" ++ String c rest)%string = None).
  { unfold match_here. rewrite eat_app. cbn [obind]. rewrite digits_app by (try apply show_number; reflexivity). cbn [obind].
    rewrite eat_app. cbn [obind]. unfold digits. cbn [span]. rewrite Hd. reflexivity. }
  assert (Hs : forall n, free "," (show n) = true).
  { intros n. unfold show. generalize (Nat.to_uint n). induction u; cbn; auto. }
  assert (Hst : forall z, match_here (String "," z) = None -> search (String "," z) = search z).
  { intros z Hz. cbn [search]. now rewrite Hz. }
  change (",term," ++ ?z)%string with (String "," ("term" ++ String "," z))%string in E |- *.
  rewrite (Hst _ E), search_skip by reflexivity.
  rewrite Hst.
  - rewrite search_skip by apply Hs.
    change (",""=""""" ++ ?z)%string with (String "," ("""=""""" ++ z))%string. rewrite Hst by reflexivity.
    rewrite search_skip by reflexivity. apply search_free. cbn [free]. now rewrite Hcc, Hr.
  - destruct (show_number g) as [Hn Hg]. destruct (show g) as [|d s]; [contradiction|].
    unfold match_here. cbn [append eat]. rewrite Ascii.eqb_refl. cbn [all_digits] in Hg. destruct (Ascii.eqb_spec "t" d); [|reflexivity]. subst d. discriminate.
Qed.
Print Assumptions C136_marked_levels.

Example C136_ex :
  map search ["1s,term,2,""=""""0.0000"""""",L1234"; "Configuration,Term,J,g,Level (eV)"; "2s.2p,term,12,""=""""10"""""""; "3d,term,10,""=""""[12.09]"""""""]
  = [Some ("2", ("0", "0000")); None; Some ("12", ("10", "")); None].
Proof. reflexivity. Qed.
Example C136_rows : row_ok (Level "2s.2p" 12 10 "20" ",L1") /\ row_line (Level "2s.2p" 12 10 "20" ",L1") = "2s.2p,term,12,""=""""10.20"""""",L1" /\ dec "20" = 20.
Proof. repeat split. Qed.
