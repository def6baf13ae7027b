(** The datum changes the intervals of a robust analysis. *)
From Coq Require Import Lia Lra Permutation.
From Coquelicot Require Import Coquelicot.
From Verif Require Import M_Base M_Lib M_Options M_Time M_Slvinit M_Ellipse M_Conf M_Robust M_Diag M_Solve M_Recon S_Dict S_Options S_Order S_Basis S_Fit S_Ellipse S_Recon S_Model S_Conf S_Errors S_Robust S_RobustErr
  L_Base L_Options L_SolveInv L_Angle L_Core L_Model L_Recon L_Model2 L_Model3 L_Model15 L_Nodal3 L_Example L_Example3 L_Example4 L_Example5 L_Example7 L_Example11 L_Example12 L_Errors6 L_RobErr L_RobErr2 L_RobErr3.
Open Scope R_scope.
Open Scope string_scope.

Notation half := (RtoC (1 / 2)).
Lemma amp7 : e_maj (ellipse_of false half half) = 1.
Proof.
  unfold ellipse_of, cs2cep1, e_maj, Xu_of, Yu_of, Cmod. cbn. match goal with |- sqrt ?a = _ => replace a with 1 by field end. apply sqrt_1.
Qed.
Lemma row0 c r : rows c = [r] -> r = crow_of c 0.
Proof.
  unfold rows. destruct (c_name c) as [|? [|]]; cbn [length seq map]; intros H; try discriminate. now injection H.
Qed.
Lemma pm7 c r : well_formed c -> o_twodim (c_opt c) = false -> c_name c = ["M2"] -> rows c = [r] ->
  w_g r = Some (e_g (ellipse_of false half half)) -> w_A r = Some (Some (e_maj (ellipse_of false half half))) -> pm_of c 0 = (half, half).
Proof.
  intros W T N Hr Hg HA. apply row0 in Hr. subst r. cbn [crow_of w_g w_A at_] in Hg, HA.
  destruct (wf_1d _ W T) as (E1 & (a & Ea) & _). unfold pm_of. rewrite E1, Ea in *. unfold at_ in HA. apply Some_inj in HA.
  rewrite (nth_error_nth _ _ 0 HA), (nth_error_nth _ _ 0 Hg). rewrite pm1_ellipse. unfold visible. cbv zeta. cbn. apply f_equal2; apply C_eq; cbn; field.
Qed.
Lemma yields7 K c r x : well_formed c -> o_twodim (c_opt c) = false -> o_nodsatnone (c_opt c) = true -> o_gwchnone (c_opt c) = true ->
  o_notrend (c_opt c) = true -> c_reftime c = ex_tref -> c_name c = ["M2"] -> c_lind c = [47%nat] -> c_mean c = Some K -> rows c = [r] ->
  w_g r = Some (e_g (ellipse_of false half half)) -> w_A r = Some (Some (e_maj (ellipse_of false half half))) ->
  yields c x (RtoC (cos ((x - 2) / 2 * al) + K)).
Proof.
  intros W T N1 N2 N3 RT NM LI ME Hr Hg HA.
  assert (Es : map (e_of c x) (c_lind c) = map Some [ex_e x 47]) by (rewrite LI; cbn [map]; f_equal; now apply e_raw).
  destruct (recon_vals c x [ex_e x 47] W Es) as (R1 & _). cbv zeta in R1.
  assert (P : pms c = [(half, half)]) by (unfold pms; rewrite NM; cbn [length seq map]; now rewrite (pm7 c r)).
  unfold yields. rewrite T. split; [|reflexivity]. rewrite R1. f_equal. rewrite P, ex_e_val. unfold bgC, mnC. rewrite T, N3, ME. cbn [od].
  unfold hsum, csum, cis. cbn. field.
Qed.
Lemma residuals7 K c r : well_formed c -> o_twodim (c_opt c) = false -> o_nodsatnone (c_opt c) = true -> o_gwchnone (c_opt c) = true ->
  o_notrend (c_opt c) = true -> c_reftime c = ex_tref -> c_name c = ["M2"] -> c_lind c = [47%nat] -> c_mean c = Some K -> rows c = [r] ->
  w_g r = Some (e_g (ellipse_of false half half)) -> w_A r = Some (Some (e_maj (ellipse_of false half half))) ->
  residuals c (sm7 K) (map RtoC noise7).
Proof.
  intros W T N1 N2 N3 RT NM LI ME Hr Hg HA.
  assert (Y : forall x z, z = RtoC (cos ((x - 2) / 2 * al) + K) -> yields c x z) by (intros x z ->; eapply yields7; eauto).
  unfold residuals, sm7, ext7, data7, noise7. cbn [map combine].
  assert (C0 : cos ((0 - 2) / 2 * al) = x7) by (replace ((0 - 2) / 2 * al) with (- al) by field; apply cos_neg).
  assert (C2 : cos ((2 - 2) / 2 * al) = 1) by (replace ((2 - 2) / 2 * al) with 0 by field; apply cos_0).
  assert (C4 : cos ((4 - 2) / 2 * al) = x7) by (replace ((4 - 2) / 2 * al) with al by field; reflexivity).
  repeat (constructor; [cbn [fst snd]; apply Y; rewrite ?C0, ?C2, ?C4; apply C_eq; cbn; ring|]). constructor.
Qed.
Lemma measure7 K c q : residuals c (sm7 K) (map RtoC noise7) -> params c = 3%nat -> noise_measure fst c (sm7 K) W7 q ->
  q = (- 2 * (x7 + K) * (wt 1 (1 / 3) - wt 2 (1 / 3)) + (2 * wt 1 (1 / 3) + 4 * wt 2 (1 / 3) + 2 * wt 1 (1 / 2) + 18 * wt 3 (1 / 2))) / 4.
Proof.
  intros HR HP (rs & R1 & ->). rewrite (residuals_same _ _ _ R1 _ HR), HP. unfold sm7, ext7, data7, W7, noise7, rsum. cbn [map combine fst snd fold_right length INR RtoC]. field.
Qed.
Lemma measure7_sign c q : residuals c (sm7 0) (map RtoC noise7) -> params c = 3%nat -> noise_measure fst c (sm7 0) W7 q -> 0 < q.
Proof.
  intros HR HP H. rewrite (measure7 _ _ _ HR HP H). assert (B := COS_bound al). assert (T := wt_12).
  assert (A1 := wt_range 1 (1 / 3)). assert (A2 := wt_range 2 (1 / 3)). assert (A3 := wt_range 1 (1 / 2)). assert (A4 := wt_range 3 (1 / 2)).
  generalize dependent (wt 1 (1 / 3)). generalize dependent (wt 2 (1 / 3)). generalize dependent (wt 1 (1 / 2)). generalize dependent (wt 3 (1 / 2)). generalize dependent (cos al).
  intros; nra.
Qed.
Lemma measure7_neg c q : residuals c (sm7 1000) (map RtoC noise7) -> params c = 3%nat -> noise_measure fst c (sm7 1000) W7 q -> q < 0.
Proof.
  intros HR HP H. rewrite (measure7 _ _ _ HR HP H). assert (B := COS_bound al). assert (T := wt_12).
  assert (A1 := wt_range 1 (1 / 3)). assert (A2 := wt_range 2 (1 / 3)). assert (A3 := wt_range 1 (1 / 2)). assert (A4 := wt_range 3 (1 / 2)).
  generalize dependent (wt 1 (1 / 3)). generalize dependent (wt 2 (1 / 3)). generalize dependent (wt 1 (1 / 2)). generalize dependent (wt 3 (1 / 2)). generalize dependent (cos al).
  intros; nra.
Qed.
Lemma sm7_shifted : sm7 1000 = on_datum (RtoC 1000) (sm7 0).
Proof.
  unfold on_datum, sm7, ext7, data7. cbn [map combine fst snd]. repeat (apply f_equal2; [apply f_equal; apply C_eq; cbn; ring|]). reflexivity.
Qed.

Lemma datum_matters : exists L t u u' lat opts sm c c' r r' A g ci gi,
  analysis L t u None lat opts sm c /\ analysis L t u' None lat opts (on_datum (RtoC 1000) sm) c' /\
  (forall rc, lstsq_contract L rc) /\ inv_exact L /\
  setting opts "method" (PStr "robust") /\ setting opts "infer" PNone /\ setting opts "conf_int" (PStr "linear") /\ setting opts "white" (PBool true) /\
  c_weights c' = c_weights c /\ rows c = [r] /\ rows c' = [r'] /\
  w_A r = Some (Some A) /\ w_A r' = Some (Some A) /\ w_g r = Some g /\ w_g r' = Some g /\
  w_A_ci r = Some (Some (Fin ci)) /\ w_A_ci r' = Some (Some NaN) /\ w_g_ci r = Some (Some (Fin gi)) /\ w_g_ci r' = Some (Some NaN).
Proof.
  destruct (run7 0 (or_introl eq_refl)) as (c & AN & T & N1 & N2 & N3 & IN & RT & NM & LI & WE & ME & r & Hr & Hl & Hg & HA).
  destruct (run7 1000 (or_intror eq_refl)) as (c' & AN' & T' & N1' & N2' & N3' & IN' & RT' & NM' & LI' & WE' & ME' & r' & Hr' & Hl' & Hg' & HA').
  assert (R0 := residuals7 0 c r (analysis_wf _ _ _ _ _ _ _ _ AN) T N1 N2 N3 RT NM LI ME Hr Hg HA).
  assert (R1 := residuals7 1000 c' r' (analysis_wf _ _ _ _ _ _ _ _ AN') T' N1' N2' N3' RT' NM' LI' ME' Hr' Hg' HA').
  assert (P0 : params c = 3%nat) by (unfold params; now rewrite NM, N3). assert (P1 : params c' = 3%nat) by (unfold params; now rewrite NM', N3').
  assert (S1 : setting opts7 "infer" PNone) by (right; split; [cbn; intuition discriminate|cbn; tauto]).
  assert (S2 : setting opts7 "conf_int" (PStr "linear")) by (left; cbn; tauto).
  assert (S3 : setting opts7 "white" (PBool true)) by (left; cbn; tauto).
  assert (IX := levels_inv x7 y7).
  assert (D0 : (params c < length (sm7 0))%nat) by (rewrite P0; cbn; lia). assert (D1 : (params c' < length (sm7 1000))%nat) by (rewrite P1; cbn; lia).
  assert (Ir : In r (rows c)) by (rewrite Hr; now left). assert (Ir' : In r' (rows c')) by (rewrite Hr'; now left).
  destruct (weighted_exist _ _ _ _ _ _ _ _ _ AN IX S1 S2 D0 WE) as (_ & _ & X0). destruct (X0 r _ Ir Hl) as ((oX & BX & _) & (oY & BY & _) & (q & NV & _) & _).
  destruct (weighted_exist _ _ _ _ _ _ _ _ _ AN' IX S1 S2 D1 WE') as (_ & _ & X1). destruct (X1 r' _ Ir' Hl') as ((oX' & BX' & _) & (oY' & BY' & _) & (q' & NV' & _) & _).
  rewrite amp7 in HA, HA'.
  destruct (scalar_weighted _ _ _ _ _ _ _ _ AN IX S1 S2 S3 D0 WE r _ _ _ Ir Hl HA Hg ltac:(lra) oX oY q BX BY NV) as [CI _].
  destruct (scalar_weighted _ _ _ _ _ _ _ _ AN' IX S1 S2 S3 D1 WE' r' _ _ _ Ir' Hl' HA' Hg' ltac:(lra) oX' oY' q' BX' BY' NV') as [_ CI'].
  destruct (CI (Rlt_le _ _ (measure7_sign _ _ R0 P0 NV))) as [C1 C2]. destruct (CI' (measure7_neg _ _ R1 P1 NV')) as [C3 C4]. rewrite sm7_shifted in AN'.
  exists L7, t7, (u7 0), (u7 1000), (Some 45), opts7, (sm7 0), c, c', r, r'. do 4 eexists.
  split; [exact AN|]. split; [exact AN'|]. split; [intros rc; apply levels_contract; [exact cos_sin_one|exact sin_al]|]. split; [exact IX|].
  split; [left; cbn; tauto|]. do 3 (split; [assumption|]). split; [congruence|]. repeat (split; [eassumption|]). eassumption.
Qed.

Lemma weights7 : nth 1 W7 0 <> nth 2 W7 0.
Proof. assert (T := wt_12). unfold W7. cbn [nth]. lra. Qed.
Lemma all_ones : forall l : list xr, (forall w, In w l -> w = Fin 1) -> exists w, l = map Fin w.
Proof.
  induction l as [|x l IH]; intros H; [now exists []|]. destruct IH as [w ->]; [intros y Hy; apply H; now right|].
  exists (1 :: w). now rewrite (H x (or_introl eq_refl)).
Qed.
