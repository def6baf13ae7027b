(** A finite noise level: four hourly values and a semidiurnal frequency. *)
From Coq Require Import Lia Lra.
From Verif Require Import M_Base M_Lib M_Slvinit M_Period M_Conf S_Conf S_Period S_Noise L_Base L_Period L_Period3 L_Period9 L_Noise L_Noise2.
Open Scope R_scope.

Definition hourly : list R := [0; 1 / 24; 2 / 24; 3 / 24].
Definition no_lib : lib := {| l_parse := fun _ => None; l_lstsq := fun _ _ _ => Err ValueError; l_pinv := fun _ => Err ValueError; l_inv := fun _ => Err ValueError;
    l_svd := fun _ => Err ValueError; l_eigvals := fun _ => Err ValueError; l_is_PD := fun _ => true; l_spacing := fun _ => 0; l_mvn := fun _ _ _ _ => Err ValueError;
    l_lomb := fun _ _ _ => []; l_argsort := fun _ => [] |}.
Lemma hourly_grid : fft_grid 4 (24 * (1 / 24 - 0)) = [0; 0.25; 0.5].
Proof. unfold fft_grid. cbn. repeat (f_equal; [lra|]). f_equal. lra. Qed.
Lemma hourly_near f near : 0 < f < 0.12 -> Forall2 (nearest_bin [0; 0.25; 0.5]) [f] near -> near = [0%nat].
Proof.
  intros Hf H. inversion H as [|a b c d [H1 H2] H3]; subst. inversion H3; subst. f_equal. cbn in H1.
  assert (K := H2 0%nat). cbn [length] in K. assert (K' := K ltac:(lia)). clear K H2.
  destruct b as [|[|[|b]]]; [reflexivity| | |lia]; exfalso; revert K'; cbn [nth];
    unfold Rabs; repeat destruct Rcase_abs; lra.
Qed.
Lemma hourly_level x : length x = 4%nat -> exists levels P, noise_spectrum hourly x [0.0805] levels /\ noise_at 1 levels 0.0805 (Fin P).
Proof.
  intros Hx. destruct (band_even' no_lib hourly x None [0.0805]) as (near & p & NR & _ & BL & _).
  { exact Hx. } { discriminate. } { cbn; lia. } { cbn; lra. }
  assert (E : even_part x = x). { unfold even_part. rewrite Hx. apply firstn_all2. cbn. lia. }
  exists (b_Puu p). assert (exists m, nth 2 (b_Puu p) None = Some m) as [m Em].
  { rewrite E, Hx in NR. change (nth 1 hourly 0) with (1 / 24) in NR. change (nth 0 hourly 0) with 0 in NR. rewrite hourly_grid in NR.
    apply hourly_near in NR; [|lra]. subst near.
    rewrite E, Hx in BL. change (nth 1 hourly 0) with (1 / 24) in BL. change (nth 0 hourly 0) with 0 in BL. rewrite hourly_grid in BL.
    unfold band_levels, tidal_bands in BL. revert BL. generalize (co_spectra x x (hann_window 4) (1 / (24 * (1 / 24 - 0)))). intros P BL.
    inversion BL as [|? ? ? l1 _ B1]; subst. inversion B1 as [|? ? ? l2 _ B2]; subst. inversion B2 as [|? z ? l3 B _]; subst. cbn [nth].
    destruct z as [m|]; [eauto|exfalso]. destruct B as (idx & _ & I & ->). apply (proj2 (I 1%nat)). split.
    - split; [cbn; lia|]. cbn [fst snd]. split; [cbn; lra|]. intros j Hj. replace j with 0%nat by lia. cbn. lra.
    - cbn. lia. }
  exists (m / (24 * 1)). split.
  - exists near. exact (conj NR BL).
  - split.
    + intros b Hb HI. assert (b = 2)%nat. { do 9 (destruct b as [|b]; [cbn in HI; first [reflexivity|lra]|]). lia. } subst b. rewrite Em. reflexivity.
    + intros K. exfalso. apply (K 2%nat); [lia|]. cbn. lra.
Qed.
