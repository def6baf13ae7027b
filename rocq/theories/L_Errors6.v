(** Standard errors of a whole analysis: uniqueness of the weights, closed forms of the half-widths. *)
From Coq Require Import Lia Lra Permutation.
From Coquelicot Require Import Coquelicot.
From Verif Require Import M_Base M_Lib M_Options M_Time M_Slvinit M_Ellipse M_Conf M_Diag M_Solve M_Recon S_Dict S_Options S_Order S_Basis S_Fit S_Ellipse S_Recon S_Model S_Conf S_Errors
  L_Base L_Options L_SolveInv L_OptSolve L_Slv L_Slv2 L_Select L_Fit L_Angle L_Ellipse L_Ellipse2 L_Core L_Lsq L_Model L_Model2 L_Model3 L_Model4 L_Model5 L_Model6 L_Model7 L_Model8 L_Model9 L_Conf L_Conf2 L_Conf3 L_Conf4 L_Errors5.
Open Scope R_scope.
Open Scope string_scope.

(** ** The weights are determined *)
Definition mean_of (w w' : list R) : list R := map (fun p => (fst p + snd p) / 2) (combine w w').
Lemma mean_len w w' : length w = length w' -> length (mean_of w w') = length w.
Proof. intros H. unfold mean_of. rewrite map_length, combine_length. lia. Qed.
Lemma mean_wsum f : forall w w' sm, length w = length w' -> length w = length sm -> wsum (mean_of w w') sm f = (wsum w sm f + wsum w' sm f) / 2.
Proof.
  unfold wsum, mean_of. induction w as [|a w IH]; intros [|b w'] [|s sm] H1 H2; try discriminate; [cbn; field|].
  cbn [combine map fst snd]. rewrite !rsum_cons. rewrite IH by (cbn in *; lia). cbn [fst snd]. field.
Qed.
Lemma mean_squares : forall w w', length w = length w' ->
  squares (mean_of w w') = (squares w + squares w') / 2 - rsum (map (fun p => (fst p - snd p) ^ 2) (combine w w')) / 4.
Proof.
  unfold squares, mean_of. induction w as [|a w IH]; intros [|b w'] H1; try discriminate; [cbn; field|].
  cbn [combine map fst snd]. rewrite !rsum_cons. rewrite IH by (cbn in *; lia). cbn [fst snd]. field.
Qed.
Lemma mean_unbiased c sm i b w w' : unbiased c sm i b w -> unbiased c sm i b w' -> unbiased c sm i b (mean_of w w').
Proof.
  intros (L1 & A1 & B1 & D1) (L2 & A2 & B2 & D2). unfold unbiased.
  assert (E : length w = length w') by congruence.
  split; [rewrite mean_len; congruence|]. split; [|split].
  - intros j Hj. destruct (A1 j Hj) as [P Q], (A2 j Hj) as [P' Q']. rewrite !mean_wsum by congruence. rewrite P, P', Q, Q'.
    split; destruct (_ && _); field.
  - rewrite mean_wsum by congruence. rewrite B1, B2. field.
  - intros H. rewrite mean_wsum by congruence. rewrite (D1 H), (D2 H). field.
Qed.
Lemma differences_zero : forall w w', length w = length w' -> rsum (map (fun p => (fst p - snd p) ^ 2) (combine w w')) <= 0 -> w = w'.
Proof.
  induction w as [|a w IH]; intros [|b w'] H1 H; try discriminate; auto. cbn [combine map] in H. rewrite rsum_cons in H. cbn [fst snd] in H.
  assert (G := sumsq_nonneg (fun p => fst p - snd p) (combine w w')). assert (0 <= (a - b) ^ 2) by apply pow2_ge_0.
  assert (Z : (a - b) ^ 2 = 0) by lra. f_equal.
  - destruct (Req_dec (a - b) 0) as [E|E]; [lra|]. exfalso. apply (pow_nonzero _ 2) in E. contradiction.
  - apply IH; [now injection H1|lra].
Qed.
Lemma best_unique c sm i b w w' : best_unbiased c sm i b w -> best_unbiased c sm i b w' -> w = w'.
Proof.
  intros [U M] [U' M']. assert (E : length w = length w') by (destruct U, U'; congruence).
  apply differences_zero; auto. assert (H := M _ (mean_unbiased _ _ _ _ _ _ U U')). rewrite mean_squares in H by auto.
  assert (M1 := M _ U'). assert (M2 := M' _ U). lra.
Qed.

Lemma residuals_same c sm rs : residuals c sm rs -> forall rs', residuals c sm rs' -> rs = rs'.
Proof.
  unfold residuals. induction 1 as [|x y l k H O' IH]; intros r0 O; inversion O; subst; auto.
  f_equal; [|now apply IH]. assert (E := yields_unique _ _ _ _ H H2).
  transitivity (Cminus (snd x) (Cminus (snd x) y)); [ring|]. rewrite E. ring.
Qed.
Lemma noise_unique part c sm q q' : noise_variance part c sm q -> noise_variance part c sm q' -> q = q'.
Proof. intros (rs & H & ->) (rs' & H' & ->). now rewrite (residuals_same _ _ _ H _ H'). Qed.

(** ** Scalar data in closed form *)
Lemma A_of_sq X Y : A_of X Y = sqrt (X * X + Y * Y).
Proof. unfold A_of, cs2cep1, e_maj, Cmod. cbn [fst snd]. f_equal. ring. Qed.
Lemma linear1_closed X Y a b : X <> 0 \/ Y <> 0 -> 0 <= a -> 0 <= b ->
  let A := sqrt (X * X + Y * Y) in
  ci_maj (linear1 X Y (Fin a) (Fin b) None) = Fin (196 / 100 * sqrt ((X / A) ^ 2 * a + (Y / A) ^ 2 * b)) /\
  ci_g (linear1 X Y (Fin a) (Fin b) None) = Fin (196 / 100 * (180 / PI) / A * sqrt ((Y / A) ^ 2 * a + (X / A) ^ 2 * b)).
Proof.
  intros H Ha Hb. cbv zeta. set (q := X * X + Y * Y).
  assert (Q : 0 < q) by (unfold q; assert (0 <= X * X) by nra; assert (0 <= Y * Y) by nra; destruct H; nra).
  assert (S := sqrt_lt_R0 _ Q). assert (P0 := PI_RGT_0). assert (SS : sqrt q * sqrt q = q) by (apply sqrt_sqrt; lra).
  unfold linear1. rewrite !sqrt_fin by assumption. unfold ut_linci. cbv zeta. destruct (Req_EM_T 0 0) as [_|]; [|contradiction].
  replace ((X + 0)² + (0 - Y)²) with q by (unfold q, Rsqr; ring).
  replace ((X - 0)² + (0 + Y)²) with q by (unfold q, Rsqr; ring).
  rewrite !(xdiv_fin _ (/ 2 * sqrt q)) by lra.
  assert (DG : (2 * (X * Y + 0 * 0))² + (X² - Y² + 0² - 0²)² = q * q) by (unfold q, Rsqr; ring).
  rewrite DG. assert (q * q <> 0) by nra. rewrite !(xdiv_fin _ (q * q)) by auto.
  unfold xq, xsub. cbn [xadd xneg xmul]. rewrite !x4_fin. unfold M_Conf.deg. cbn [xmul].
  unfold z196. cbn [ci_maj ci_g fst snd xmul]. unfold propagated. cbv beta iota.
  assert (PA : sqrt a * sqrt a = a) by (apply sqrt_sqrt; lra). assert (PB : sqrt b * sqrt b = b) by (apply sqrt_sqrt; lra).
  split; f_equal.
  - f_equal. f_equal.
    replace (/ 4 * ((X + 0) / (/ 2 * sqrt q) + (X - 0) / (/ 2 * sqrt q))) with (X / sqrt q) by (field; lra).
    replace (/ 4 * ((Y - 0) / (/ 2 * sqrt q) + (Y + 0) / (/ 2 * sqrt q))) with (Y / sqrt q) by (field; lra).
    replace ((X / sqrt q) ^ 2 * a + (Y / sqrt q) ^ 2 * b) with ((X / sqrt q) ^ 2 * (sqrt a * sqrt a) + (Y / sqrt q) ^ 2 * (sqrt b * sqrt b)) by (now rewrite PA, PB). ring.
  - match goal with |- ?l = _ => set (LHS := l) end.
    assert (E : 0 <= (Y / sqrt q) ^ 2 * a + (X / sqrt q) ^ 2 * b).
    { apply Rplus_le_le_0_compat; apply Rmult_le_pos; auto; apply pow2_ge_0. }
    replace (196 / 100 * (180 / PI) / sqrt q * sqrt ((Y / sqrt q) ^ 2 * a + (X / sqrt q) ^ 2 * b)) with
      (196 / 100 * (180 / PI * (/ sqrt q * sqrt ((Y / sqrt q) ^ 2 * a + (X / sqrt q) ^ 2 * b)))) by (field; lra).
    rewrite <- (sqrt_inv q), <- sqrt_mult; auto; [|apply Rlt_le, Rinv_0_lt_compat; auto].
    unfold LHS. f_equal. f_equal. f_equal.
    replace ((X² - Y² + 0² - 0²) * Y - 2 * (X * Y + 0 * 0) * X) with (- Y * q) by (unfold q, Rsqr; ring).
    replace ((X² - Y² + 0² - 0²) * X + 2 * (X * Y + 0 * 0) * Y) with (X * q) by (unfold q, Rsqr; ring).
    assert (K : forall z, (z / sqrt q) ^ 2 = z ^ 2 / q) by (intros z; transitivity (z ^ 2 / (sqrt q * sqrt q)); [field; lra|now rewrite SS]).
    rewrite !K. transitivity (/ q * (Y ^ 2 / q * (sqrt a * sqrt a) + X ^ 2 / q * (sqrt b * sqrt b))); [field; lra|now rewrite PA, PB].
Qed.

(** ** The whole analysis *)
Lemma scalar_errors L t u lat opts sm c : analysis L t u None lat opts sm c -> lstsq_minimises L -> inv_exact L ->
  setting opts "method" (PStr "ols") -> setting opts "infer" PNone -> setting opts "conf_int" (PStr "linear") -> setting opts "white" (PBool true) ->
  (params c < length sm)%nat ->
  forall r i A g, In r (rows c) -> w_lind r = Some i -> w_A r = Some (Some A) -> w_g r = Some g -> A <> 0 ->
  forall wX wY q, best_unbiased c sm i true wX -> best_unbiased c sm i false wY -> noise_variance fst c sm q ->
  let C := cos (rad g) in let S := sin (rad g) in
  A * C = estimate fst wX sm /\ A * S = estimate fst wY sm /\
  w_A_ci r = Some (Some (Fin (196 / 100 * sqrt (C ^ 2 * (q * squares wX) + S ^ 2 * (q * squares wY))))) /\
  w_g_ci r = Some (Some (Fin (196 / 100 * (180 / PI) / A * sqrt (S ^ 2 * (q * squares wX) + C ^ 2 * (q * squares wY))))).
Proof.
  intros AN LM IX ME IN CI WH PN r i A g Hr Hl HA Hg NZ wX wY q BX BY NV.
  destruct (run_intervals _ _ _ _ _ _ _ _ AN LM IX ME IN CI WH PN r i Hr Hl) as (wX' & wY' & qu & qv & BX' & BY' & NU & _ & Q0 & _ & H).
  rewrite (best_unique _ _ _ _ _ _ BX' BX), (best_unique _ _ _ _ _ _ BY' BY), (noise_unique _ _ _ _ _ NU NV) in *.
  clear BX' BY' NU wX' wY' qu.
  rewrite (set_twodim _ _ _ _ _ _ (an_keys _ _ _ _ _ _ _ _ AN) _ (an_solve _ _ _ _ _ _ _ _ AN)) in H. cbn [is2d] in H.
  cbv zeta in H. destruct H as (H1 & H2 & H3 & H4). cbv zeta.
  set (X := estimate fst wX sm) in *. set (Y := estimate fst wY sm) in *.
  rewrite H1 in HA. injection HA as EA. rewrite H2 in Hg. injection Hg as Eg.
  destruct (cs2cep1 X Y) as [[[A' mi] th] g'] eqn:E.
  assert (A' = A) by (rewrite <- EA; unfold A_of; now rewrite E). assert (g' = g) by (rewrite <- Eg; unfold g1_of; now rewrite E). subst A' g'.
  destruct (cep1_lemma _ _ _ _ _ _ E) as (A0 & _ & _ & _ & AS & M).
  assert (XE : A * cos (rad g) = X).
  { generalize (M 0). unfold component. rewrite cos_minus, cos_0, sin_0. intros; lra. }
  assert (YE : A * sin (rad g) = Y).
  { generalize (M (PI / 2)). unfold component. rewrite cos_minus, cos_PI2, sin_PI2. intros; lra. }
  split; [exact XE|]. split; [exact YE|].
  assert (XY : X <> 0 \/ Y <> 0).
  { destruct (Req_dec X 0) as [ZX|]; [|auto]. destruct (Req_dec Y 0) as [ZY|]; [|auto]. exfalso. apply NZ.
    rewrite ZX, ZY in AS. destruct (Req_dec A 0) as [|K]; auto. apply (pow_nonzero _ 2) in K. lra. }
  assert (SX := squares_nonneg wX). assert (SY := squares_nonneg wY).
  destruct (linear1_closed X Y (squares wX * q) (squares wY * q) XY) as [W1 W2]; [now apply Rmult_le_pos|now apply Rmult_le_pos|].
  rewrite H3, H4, W1, W2. rewrite A_of_sq in EA. rewrite EA. rewrite <- XE, <- YE.
  replace (A * cos (rad g) / A) with (cos (rad g)) by (field; exact NZ). replace (A * sin (rad g) / A) with (sin (rad g)) by (field; exact NZ).
  rewrite !(Rmult_comm q). auto.
Qed.

Lemma vector_errors L t u v lat opts sm c : analysis L t u (Some v) lat opts sm c -> lstsq_minimises L -> inv_exact L ->
  setting opts "method" (PStr "ols") -> setting opts "infer" PNone -> setting opts "conf_int" (PStr "linear") -> setting opts "white" (PBool true) ->
  (params c < length sm)%nat ->
  forall r i, In r (rows c) -> w_lind r = Some i ->
  forall wX wY qu qv, best_unbiased c sm i true wX -> best_unbiased c sm i false wY -> noise_variance fst c sm qu -> noise_variance snd c sm qv ->
  let Xu := estimate fst wX sm in let Yu := estimate fst wY sm in let Xv := estimate snd wX sm in let Yv := estimate snd wY sm in
  w_Lsmaj r = Some (Some (maj_of Xu Yu Xv Yv)) /\ w_Lsmin r = Some (Some (min_of Xu Yu Xv Yv)) /\
  w_theta r = Some (Some (theta_of Xu Yu Xv Yv)) /\ w_g r = Some (g_of Xu Yu Xv Yv) /\
  (~ circular Xu Yu Xv Yv -> exists dmaj dmin dth dg,
    partials maj_of Xu Yu Xv Yv dmaj /\ partials min_of Xu Yu Xv Yv dmin /\
    turn_partials 180 theta_of Xu Yu Xv Yv dth /\ turn_partials 180 g_of Xu Yu Xv Yv dg /\
    let half_width := fun d => Fin (196 / 100 * propagated d (sqrt (qu * squares wX)) (sqrt (qu * squares wY)) (sqrt (qv * squares wX)) (sqrt (qv * squares wY))) in
    w_Lsmaj_ci r = Some (Some (half_width dmaj)) /\ w_g_ci r = Some (Some (half_width dg)) /\
    (Xv <> 0 -> w_Lsmin_ci r = Some (Some (half_width dmin)) /\ w_theta_ci r = Some (Some (half_width dth)))) /\
  (Xv = 0 -> w_Lsmin_ci r = Some (Some (Fin 0)) /\ w_theta_ci r = Some (Some (Fin 0))).
Proof.
  intros AN LM IX ME IN CI WH PN r i Hr Hl wX wY qu qv BX BY NU NV.
  destruct (run_intervals _ _ _ _ _ _ _ _ AN LM IX ME IN CI WH PN r i Hr Hl) as (wX' & wY' & qu' & qv' & BX' & BY' & NU' & NV' & Q0 & Q1 & H).
  rewrite (best_unique _ _ _ _ _ _ BX' BX), (best_unique _ _ _ _ _ _ BY' BY), (noise_unique _ _ _ _ _ NU' NU), (noise_unique _ _ _ _ _ NV' NV) in *.
  clear BX' BY' NU' NV' wX' wY' qu' qv'.
  rewrite (set_twodim _ _ _ _ _ _ (an_keys _ _ _ _ _ _ _ _ AN) _ (an_solve _ _ _ _ _ _ _ _ AN)) in H. cbn [is2d] in H.
  cbv zeta in *. destruct H as (H1 & H2 & H3 & H4 & H5 & H6 & H7 & H8).
  repeat (split; [assumption|]).
  assert (SX := squares_nonneg wX). assert (SY := squares_nonneg wY).
  split.
  - intros NC. destruct (linear2_widths _ _ _ _ (squares wX * qu) (squares wY * qu) (squares wX * qv) (squares wY * qv) NC) as
      (dmaj & dmin & dth & dg & P1 & P2 & P3 & P4 & E); try (now apply Rmult_le_pos).
    exists dmaj, dmin, dth, dg. repeat (split; [assumption|]). cbv zeta in E. destruct E as (E1 & E2 & E3 & E4).
    rewrite H5, H6, H7, H8, E1, E2, E3, E4. rewrite !(Rmult_comm (squares _)). split; [reflexivity|]. split; [reflexivity|].
    intros N. destruct (Req_EM_T _ 0); [contradiction|auto].
  - intros Z. rewrite H6, H7, Z. destruct (zero_Xv (estimate fst wX sm) (estimate fst wY sm) (estimate snd wY sm) (Fin (squares wX * qu)) (Fin (squares wY * qu)) (Fin (squares wX * qv)) (Fin (squares wY * qv)) None) as [-> ->].
    auto.
Qed.

Lemma errors_exist L t u v lat opts sm c : analysis L t u v lat opts sm c -> lstsq_minimises L -> inv_exact L ->
  setting opts "method" (PStr "ols") -> setting opts "infer" PNone -> setting opts "conf_int" (PStr "linear") ->
  (params c < length sm)%nat ->
  forall r i, In r (rows c) -> w_lind r = Some i ->
  (exists! wX, best_unbiased c sm i true wX) /\ (exists! wY, best_unbiased c sm i false wY) /\
  (exists! qu, noise_variance fst c sm qu) /\ (exists! qv, noise_variance snd c sm qv).
Proof.
  intros AN LM IX ME IN CI PN r i Hr Hl.
  destruct (run_intervals_any _ _ _ _ _ _ _ _ AN LM IX ME IN CI PN) as (si & frq & p & _ & _ & _ & H).
  destruct (H r i Hr Hl) as (k & wX & wY & qu & qv & _ & BX & BY & NU & NV & _).
  repeat split; [exists wX|exists wY|exists qu|exists qv]; (split; [assumption|]); intros; (eapply best_unique || eapply noise_unique); eassumption.
Qed.
