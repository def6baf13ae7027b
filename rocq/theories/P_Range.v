(** Property C104: size, period and smoothness of what reconstruct predicts. *)
From Coq Require Import List String Reals Lia Lra.
From Coquelicot Require Import Coquelicot.
From Verif Require Import M_Base M_Lib M_Options M_Time M_Slvinit M_Select M_Ellipse M_Robust M_Period M_Conf M_Diag M_Solve M_Recon
  S_Dict S_Options S_Slv S_Order S_Fit S_Recon S_Model S_Range L_Range L_Example L_Example3 L_Example4 L_Example5 L_Example7.
Import ListNotations.
Open Scope R_scope.
Open Scope string_scope.

(** C104.  With the result of any analysis, whatever the choice of constituents and whatever the time, the tidal part of what
    reconstruct returns is not larger than the sum of nodal factor times amplitude (semi-major axis) over the constituents
    that take part, ... *)
Theorem C104_range : forall L t u v lat opts sm c, analysis L t u v lat opts sm c ->
  forall L1 k mS mP x z, predicts L1 c k mS mP x z -> Cmod z <= total_of (fun r => Rabs (factor c x r) * amplitude c r) (included c k mS mP).
Proof. exact range_bound. Qed.
Print Assumptions C104_range.

(** ... without nodal corrections not larger than the sum of their amplitudes. *)
Theorem C104_range_plain : forall L t u v lat opts sm c, analysis L t u v lat opts sm c -> o_nodsatnone (c_opt c) = true ->
  forall L1 k mS mP x z, predicts L1 c k mS mP x z -> Cmod z <= total_of (amplitude c) (included c k mS mP).
Proof. exact range_plain. Qed.
Print Assumptions C104_range_plain.

(** With nodal corrections off or taken at the reference time, and phases likewise: a single constituent reaches its factor times
    its amplitude within one period of any time (scalar data: high water of that height); ... *)
Theorem C104_attained : forall L t u v lat opts sm c, analysis L t u v lat opts sm c -> steady (c_opt c) -> corrections_finite c -> NoDup (c_name c) ->
  forall r n, In r (rows c) -> w_name r = Some n -> frequency r <> 0 -> forall L1 x, exists y z, x <= y < x + 1 / (24 * Rabs (frequency r)) /\
  predicts L1 c (CSeq [n]) 0 0 y z /\ Cmod z = factor c x r * amplitude c r /\ (o_twodim (c_opt c) = false -> z = RtoC (factor c x r * amplitude c r)).
Proof. exact attained. Qed.
Print Assumptions C104_attained.

(** ... predictions repeat after T days when every constituent that takes part goes through a whole number of cycles in
    T days (24 times the reported frequency, which is in cycles per hour); ... *)
Theorem C104_period : forall L t u v lat opts sm c, analysis L t u v lat opts sm c -> steady (c_opt c) ->
  forall L1 L2 k mS mP x z T, (forall r, In r (included c k mS mP) -> exists j, 24 * frequency r * T = IZR j) ->
  predicts L1 c k mS mP x z -> predicts L2 c k mS mP (x + T) z.
Proof. exact repeats. Qed.
Print Assumptions C104_period.

(** ... they are opposite when every one of them goes through a whole number of cycles and a half; ... *)
Theorem C104_half : forall L t u v lat opts sm c, analysis L t u v lat opts sm c -> steady (c_opt c) ->
  forall L1 L2 k mS mP x z T, (forall r, In r (included c k mS mP) -> exists j, 24 * frequency r * T = IZR j + 1 / 2) ->
  predicts L1 c k mS mP x z -> predicts L2 c k mS mP (x + T) (Copp z).
Proof. exact opposes. Qed.
Print Assumptions C104_half.

(** ... and between two times they differ by at most the time between them times the sum of 2 pi 24 frequency factor amplitude. *)
Theorem C104_smooth : forall L t u v lat opts sm c, analysis L t u v lat opts sm c -> steady (c_opt c) ->
  forall L1 L2 k mS mP x y z z', predicts L1 c k mS mP x z -> predicts L2 c k mS mP y z' ->
  Cmod (Cminus z' z) <= total_of (fun r => 2 * PI * 24 * Rabs (frequency r) * (Rabs (factor c x r) * amplitude c r)) (included c k mS mP) * Rabs (y - x).
Proof. exact smooth. Qed.
Print Assumptions C104_smooth.

(** M2 from four samples with noise *)
Example C104_example : exists L t u lat opts sm c r, analysis L t u None lat opts sm c /\ steady (c_opt c) /\ o_nodsatnone (c_opt c) = true /\ corrections_finite c /\
  NoDup (c_name c) /\ In r (rows c) /\ w_name r = Some "M2" /\ 7 / 96 < frequency r < 8 / 96 /\ 0 < amplitude c r /\ included c CNone 0 0 = [r] /\
  forall x, exists z, predicts L c CNone 0 0 x z.
Proof.
  destruct (n_run false false (RtoC 1) (1, 2) (Cconj (1, 2)) (RtoC 3)) as (c & AN & E1 & E2 & E3 & E4 & E5 & E6 & E7 & r & R1 & R2 & R3 & R4).
  { intros _. cbn. auto. }
  assert (W := L_Model15.analysis_wf _ _ _ _ _ _ _ _ AN).
  assert (ER : rows c = [crow_of c 0]) by (unfold rows; rewrite E6; reflexivity).
  assert (CF : corrections_finite c) by (left; exact E2).
  do 7 eexists. exists r. split; [exact AN|]. split; [split; left; assumption|]. split; [exact E2|]. split; [exact CF|].
  split; [rewrite E6; repeat constructor; cbn; tauto|]. split; [exact R1|]. split; [|split; [|split; [|split]]].
  - rewrite ER in R1. destruct R1 as [<-|[]]. cbn [crow_of w_name]. rewrite E6. reflexivity.
  - rewrite (row_frequency _ _ _ W R1 R2), E5. exact M2_freq.
  - unfold amplitude. rewrite E1, (R4 eq_refl). unfold ellipse_of, cs2cep1, e_maj, Xu_of, Yu_of, Cmod. cbn. apply sqrt_lt_R0. lra.
  - unfold included. rewrite L_Model2.all_chosen, ER. rewrite ER in R1. destruct R1 as [<-|[]]. reflexivity.
  - intros x. destruct (L_Recon4.tides_finite c x (included c CNone 0 0) W (analysis_known _ _ _ _ _ _ _ _ AN) CF (included_rows _ _ _ _)) as [z Hz].
    exists z. now apply predicts_tides.
Qed.
