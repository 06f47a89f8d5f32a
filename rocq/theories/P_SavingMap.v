(** C16: the mappings given to load take precedence over the shipped classes. *)
From Coq Require Import String List Bool Arith Lia Reals Lra.
From Verif Require Import M_PytreeTable M_Pytree L_Pytree M_Registry M_Classes M_Elements M_Saving L_Saving P_Saving.
Import ListNotations.
Open Scope list_scope.
Open Scope nat_scope.

Definition instrument_names : list string := ["Gaussian"; "TwinGaussian"; "SuperGaussian"; "Lorentzian"; "FromArray"]%string.
Lemma instrument_kind c : In c instrument_names -> kind_of c = Some KInstr.
Proof. intros H. cbn in H. repeat (destruct H as [<-|H]; [vm_compute; reflexivity|]). destruct H. Qed.
Lemma instrument_restore d t w : In d instrument_names -> restore d t = Some w -> exists o, fst w = VObj d o.
Proof.
  intros H E. unfold restore in E. destruct (class_of d) as [p|] eqn:EC; [|discriminate].
  destruct t as [| |b l| |]; try discriminate. destruct l as [|ch [|aux [|]]]; try discriminate.
  destruct (parse_children d ch) as [vs|]; [|discriminate]. destruct (parse_aux d (pc_un_aux p) aux) as [a|]; [|discriminate].
  unfold rebuild in E. rewrite EC in E.
  assert (EN : pc_new p = d).
  { cbn in H. repeat (destruct H as [<-|H]; [vm_compute in EC; injection EC as <-; reflexivity|]). destruct H. }
  destruct (match pc_un_aux p with ATuple _ => _ | _ => _ end); [discriminate|].
  destruct (assign _ _ _) as [o|]; [|discriminate]. destruct (unpack _ _ _) as [o'|]; [|discriminate].
  injection E as <-. exists o'. cbn. now rewrite EN.
Qed.
(** An instrument function loaded with a mapping for its name is an instance of the mapped class. *)
Theorem C16_mapping_wins : forall c d attrs w,
  In c ["Gaussian"; "TwinGaussian"; "SuperGaussian"; "Lorentzian"; "FromArray"]%string ->
  In d ["Gaussian"; "TwinGaussian"; "SuperGaussian"; "Lorentzian"; "FromArray"]%string ->
  save_load [(c, d)] (VObj c attrs) = Some w -> exists o, w = VObj d o.
Proof.
  intros c d attrs w Hc Hd. unfold save_load. rewrite enc_vobj, (instrument_kind c Hc).
  destruct (class_of c) as [p|]; [|discriminate]. cbn [has_grid].
  destruct (allsome _) as [ch|]; [|discriminate]. destruct (allsome _) as [aux|]; [|discriminate].
  unfold enc_obj, tagged. rewrite dec_obj. cbn [map]. unfold fstmap. cbn [fst snd].
  change (dec [(c, d)] (JStr "InstrumentFunction")) with (Some (@Leaf atom (AStr "InstrumentFunction"))). cbn [option_map allsome opt_cons].
  rewrite dec_list. cbn [map allsome]. change (dec [(c, d)] (JStr c)) with (Some (@Leaf atom (AStr c))).
  destruct (dec [(c, d)] (JList [_; _])) as [t|]; [|discriminate]. cbn [opt_cons option_map allsome].
  unfold hook. cbn -[instr_named restore]. unfold instr_named. cbn [find fst]. rewrite String.eqb_refl. cbn [snd].
  destruct (restore d t) as [r|] eqn:ER; [|discriminate]. cbn. intros [= <-]. now apply (instrument_restore d t).
Qed.
Print Assumptions C16_mapping_wins.
(** A super-Gaussian loaded so becomes a Gaussian of the same width, without an error. *)
Example C16_mapping_met : exists o,
  save_load [("SuperGaussian", "Gaussian")]%string (VObj "SuperGaussian" (setattr "sigma" (quant1 2) (setattr "power" (Leaf (ANum 3)) no_attrs))) = Some (VObj "Gaussian" o) /\
  o "sigma"%string = Some (quant1 2).
Proof. eexists. split; reflexivity. Qed.
