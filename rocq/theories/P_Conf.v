(** Properties C57 to C65 and C76: confidence intervals. *)
From Coq Require Import Lia Lra.
From Coquelicot Require Import Coquelicot.
From Verif Require Import M_Base M_Lib M_Options M_Slvinit M_Select M_Ellipse M_Robust M_Period M_Conf M_Solve M_Diag
  S_Order S_Ellipse S_Dict S_Options S_Robust S_Conf L_Conf L_Conf2 L_Conf3 L_Conf4 L_Conf5 L_Conf6.
Open Scope R_scope.
Open Scope string_scope.

(** C57.  Away from circular motion (and from zero), the standard deviations of major axis and phase of vector
    data are the first-order propagation of the standard deviations of the coefficients through the reported
    major axis and phase; with Xv <> 0 also those of minor axis and orientation. *)
Theorem C57_vector : forall Xu Yu Xv Yv s1 s2 s3 s4, ~ circular Xu Yu Xv Yv ->
  exists dmaj dmin dth dg,
    partials maj_of Xu Yu Xv Yv dmaj /\ partials min_of Xu Yu Xv Yv dmin /\
    turn_partials 180 theta_of Xu Yu Xv Yv dth /\ turn_partials 180 g_of Xu Yu Xv Yv dg /\
    ut_linci Xu Yu Xv Yv (Fin s1) (Fin s2) (Fin s3) (Fin s4) =
      ((Fin (propagated dmaj s1 s2 s3 s4), Fin (if Req_EM_T Xv 0 then 0 else propagated dmin s1 s2 s3 s4)),
       (Fin (propagated dg s1 s2 s3 s4), Fin (if Req_EM_T Xv 0 then 0 else propagated dth s1 s2 s3 s4))).
Proof. exact linci_general. Qed.
Print Assumptions C57_vector.

Theorem C57_scalar : forall X Y s1 s2, X <> 0 \/ Y <> 0 -> exists a1 a2 b1 b2,
  is_derive (fun x => A_of x Y) X a1 /\ is_derive (fun y => A_of X y) Y a2 /\
  turn_rate 360 (fun x => g1_of x Y) X b1 /\ turn_rate 360 (fun y => g1_of X y) Y b2 /\
  ut_linci X Y 0 0 (Fin s1) (Fin s2) (Fin 0) (Fin 0) =
    ((Fin (sqrt (a1 ^ 2 * s1 ^ 2 + a2 ^ 2 * s2 ^ 2)), Fin 0), (Fin (sqrt (b1 ^ 2 * s1 ^ 2 + b2 ^ 2 * s2 ^ 2)), Fin 0)).
Proof. exact linci_scalar. Qed.
Print Assumptions C57_scalar.

(** circular motion, or none at all: not a number *)
Theorem C57_undefined : forall Xu Yu Xv Yv s1 s2 s3 s4, circular Xu Yu Xv Yv ->
  ut_linci Xu Yu Xv Yv s1 s2 s3 s4 =
    if Req_EM_T Xv 0 then ((NaN, Fin 0), (NaN, Fin 0)) else ((NaN, NaN), (NaN, NaN)).
Proof. exact linci_nan. Qed.
Print Assumptions C57_undefined.

(** The half-widths are 1.96 standard deviations; a, b, c, d are the variances of Xu, Yu, Xv, Yv. *)
Theorem C57_half_widths : forall Xu Yu Xv Yv a b c d, ~ circular Xu Yu Xv Yv -> 0 <= a -> 0 <= b -> 0 <= c -> 0 <= d ->
  exists dmaj dmin dth dg,
    partials maj_of Xu Yu Xv Yv dmaj /\ partials min_of Xu Yu Xv Yv dmin /\
    turn_partials 180 theta_of Xu Yu Xv Yv dth /\ turn_partials 180 g_of Xu Yu Xv Yv dg /\
    let w := linear2 Xu Yu Xv Yv (Fin a) (Fin b) (Fin c) (Fin d) None in
    let s := fun p => Fin (196 / 100 * propagated p (sqrt a) (sqrt b) (sqrt c) (sqrt d)) in
    ci_maj w = s dmaj /\ ci_g w = s dg /\
    ci_min w = (if Req_EM_T Xv 0 then Fin 0 else s dmin) /\ ci_theta w = (if Req_EM_T Xv 0 then Fin 0 else s dth).
Proof. exact linear2_widths. Qed.
Print Assumptions C57_half_widths.

Theorem C57_half_widths_scalar : forall X Y a b, X <> 0 \/ Y <> 0 -> 0 <= a -> 0 <= b -> exists a1 a2 b1 b2,
  is_derive (fun x => A_of x Y) X a1 /\ is_derive (fun y => A_of X y) Y a2 /\
  turn_rate 360 (fun x => g1_of x Y) X b1 /\ turn_rate 360 (fun y => g1_of X y) Y b2 /\
  ci_maj (linear1 X Y (Fin a) (Fin b) None) = Fin (196 / 100 * sqrt (a1 ^ 2 * a + a2 ^ 2 * b)) /\
  ci_g (linear1 X Y (Fin a) (Fin b) None) = Fin (196 / 100 * sqrt (b1 ^ 2 * a + b2 ^ 2 * b)).
Proof. exact linear1_widths. Qed.
Print Assumptions C57_half_widths_scalar.

(** an ellipse that is neither zero nor circular, a circular one, and a width *)
Example C57_example_ellipse : ~ circular 3 0 1 1.
Proof. unfold circular. intros [[H1 H2]|[H1 H2]]; lra. Qed.
Example C57_example_circle : circular 1 0 0 1.
Proof. unfold circular. left. lra. Qed.
Example C57_example_width : ci_maj (linear1 1 0 (Fin 4) (Fin 9) None) = Fin (196 / 100 * 2).
Proof. rewrite width_at_1_0 by lra. f_equal. f_equal. replace 4 with (2 * 2) by ring. apply sqrt_square. lra. Qed.

(** C58.  When the v cosine coefficient is exactly zero, the half-widths of minor axis and orientation are 0 whatever the
    variances are, including infinite and undefined ones. *)
Theorem C58_zero : forall Xu Yu Yv a b c d P,
  ci_min (linear2 Xu Yu 0 Yv a b c d P) = Fin 0 /\ ci_theta (linear2 Xu Yu 0 Yv a b c d P) = Fin 0.
Proof. exact zero_Xv. Qed.
Print Assumptions C58_zero.

(** this is not the propagated error *)
Theorem C58_refuted : exists Xu Yu Yv d, ~ circular Xu Yu 0 Yv /\ partials min_of Xu Yu 0 Yv d /\
  propagated d 1 1 1 1 <> 0 /\ ci_min (linear2 Xu Yu 0 Yv (Fin 1) (Fin 1) (Fin 1) (Fin 1) None) = Fin 0.
Proof. exact zero_Xv_wrong. Qed.
Print Assumptions C58_refuted.

(** C59.  Coloured noise rescales the two variances of scalar data so that they add up to the noise level P,
    keeping their ratio. *)
Theorem C59_scalar : forall X Y a b P, a + b <> 0 ->
  linear1 X Y (Fin a) (Fin b) (Some (Fin P)) = linear1 X Y (Fin (P * a / (a + b))) (Fin (P * b / (a + b))) None.
Proof. exact coloured1. Qed.
Print Assumptions C59_scalar.
Example C59_example : 3 * 2 / (2 + 4) + 3 * 4 / (2 + 4) = 3. Proof. field. Qed.

(** Of vector data only the variances of v are rescaled. *)
Theorem C59_vector : forall Xu Yu Xv Yv a b c d P, c + d <> 0 ->
  linear2 Xu Yu Xv Yv a b (Fin c) (Fin d) (Some (Fin P)) =
  linear2 Xu Yu Xv Yv a b (Fin (P * c / (c + d))) (Fin (P * d / (c + d))) None.
Proof. exact coloured2. Qed.
Print Assumptions C59_vector.

(** The noise level of u is not used at all. *)
Theorem C59_u_ignored_refuted : forall L o gam pu pu' pv nc c Xu Yu Xv Yv g th, o_twodim o = true -> o_linci o = true ->
  conf_one L o gam (Some (pu, pv)) nc c Xu Yu Xv Yv g th = conf_one L o gam (Some (pu', pv)) nc c Xu Yu Xv Yv g th.
Proof. exact coloured_u_ignored. Qed.
Print Assumptions C59_u_ignored_refuted.

(** Exchanging u and v leaves the major axis unchanged but not its interval. *)
Theorem C59_swap_refuted : exists Xu Yu Xv Yv P,
  maj_of Xu Yu Xv Yv = maj_of Xv Yv Xu Yu /\
  ci_maj (linear2 Xu Yu Xv Yv (Fin 1) (Fin 1) (Fin 1) (Fin 1) (Some (Fin P))) <>
  ci_maj (linear2 Xv Yv Xu Yu (Fin 1) (Fin 1) (Fin 1) (Fin 1) (Some (Fin P))).
Proof. exact swap_coloured. Qed.
Print Assumptions C59_swap_refuted.

(** C60.  The fitted parameters of constituent c stand in its positive- and negative-frequency columns. *)
Theorem C60_columns : forall m nNR nR c, (2 * (nNR + nR) <= length m)%nat -> (c < nNR + nR)%nat ->
  nth c (ap_of m nNR nR) (RtoC 0) = nth (pos_column nNR nR c) m (RtoC 0) /\
  nth c (am_of m nNR nR) (RtoC 0) = nth (neg_column nNR nR c) m (RtoC 0).
Proof. exact columns_of. Qed.
Print Assumptions C60_columns.

(** Without reference constituents only the covariances of these columns matter. *)
Theorem C60_no_inference : forall L o g h p nNR c Xu Yu Xv Yv gg th, (c < nNR)%nat -> own_columns_agree nNR 0 c g h ->
  conf_one L o (Some g) p nNR c Xu Yu Xv Yv gg th = conf_one L o (Some h) p nNR c Xu Yu Xv Yv gg th.
Proof. exact own_columns. Qed.
Print Assumptions C60_no_inference.

(** With reference constituents, for every constituent, changing covariances of other constituents only can
    change the interval. *)
Theorem C60_inference_refuted : forall L nNR nR c, (1 <= nNR)%nat -> (1 <= nR)%nat -> (c < nNR + nR)%nat ->
  exists g h o Xu Yu w1 w2, own_columns_agree nNR nR c g h /\
  conf_one L o (Some g) None (nNR + nR) c Xu Yu 0 0 0 0 = Ok w1 /\
  conf_one L o (Some h) None (nNR + nR) c Xu Yu 0 0 0 0 = Ok w2 /\ ci_maj w1 <> ci_maj w2.
Proof. exact foreign_columns. Qed.
Print Assumptions C60_inference_refuted.
Example C60_example : pos_column 2 1 2 = 4%nat /\ neg_column 2 1 2 = 5%nat /\ pos_column 2 1 1 = 1%nat /\ neg_column 2 1 1 = 3%nat.
Proof. repeat split. Qed.
Example C60_example_agree : own_columns_agree 2 0 1 (spike 4 0 (RtoC 7), spike 4 0 (RtoC 0)) (spike 4 2 (RtoC 8), spike 4 2 (RtoC 1)).
Proof. intros i j [-> | ->] [-> | ->]; split; reflexivity. Qed.

(** C61.  Every half-width that solve reports is NaN or at least 0. *)
Theorem C61_solve : forall L t u v lat opts c r, solve L t u v lat opts = Ok c -> In r (rows c) -> ci_not_negative r.
Proof. exact solve_ci_nn. Qed.
Print Assumptions C61_solve.

(** C62.  Clustering keeps the first angle and moves the others by whole periods to within half a period of it. *)
Theorem C62_cluster : forall x xs ang, 0 < ang -> exists ys, cluster (x :: xs) ang = x :: ys /\
  Forall2 (fun a b => same_angle ang b a /\ x - ang / 2 <= b < x + ang / 2) xs ys.
Proof. exact cluster_spec. Qed.
Print Assumptions C62_cluster.

(** C63.  Monte-Carlo half-widths are the spreads of the ellipses of the sampled coefficients; phases and orientations are
    put on the branch of period 360 around the fitted value. *)
Theorem C63_vector : forall L o gam p nc c Xu Yu Xv Yv g th w, mvn_shape L -> o_linci o = false -> o_twodim o = true ->
  conf_one L o gam p nc c Xu Yu Xv Yv g th = Ok w -> exists cov q gs ths x1 x2 x3 x4,
  l_mvn L c [Xu; Yu; Xv; Yv] cov (o_nrlzn o) = Ok (map (fun p : R * R * R * R => let '(a, b, d, f) := p in [a; b; d; f]) q) /\
  length q = o_nrlzn o /\
  spread (map (fun p => let '(a, b, d, f) := p in maj_of a b d f) q) x1 /\ ci_maj w = Fin x1 /\
  spread (map (fun p => let '(a, b, d, f) := p in min_of a b d f) q) x2 /\ ci_min w = Fin x2 /\
  on_branch 360 g (map (fun p => let '(a, b, d, f) := p in g_of a b d f) q) gs /\ spread gs x3 /\ ci_g w = Fin x3 /\
  on_branch 360 th (map (fun p => let '(a, b, d, f) := p in theta_of a b d f) q) ths /\ spread ths x4 /\ ci_theta w = Fin x4.
Proof. exact sampled2. Qed.
Print Assumptions C63_vector.

Theorem C63_scalar : forall L o gam p nc c Xu Yu Xv Yv g th w, mvn_shape L -> o_linci o = false -> o_twodim o = false ->
  conf_one L o gam p nc c Xu Yu Xv Yv g th = Ok w -> exists cov q gs x1 x3,
  l_mvn L c [Xu; Yu] cov (o_nrlzn o) = Ok (map (fun p => [fst p; snd p]) q) /\ length q = o_nrlzn o /\
  spread (map (fun p => A_of (fst p) (snd p)) q) x1 /\ ci_maj w = Fin x1 /\
  on_branch 360 g (map (fun p => g1_of (fst p) (snd p)) q) gs /\ spread gs x3 /\ ci_g w = Fin x3.
Proof. exact sampled1. Qed.
Print Assumptions C63_scalar.

(** 200 samples whose orientations all lie within half a degree of 0 modulo 180 give a half-width of
    1.96 * 89.5 / 0.6745, about 260 degrees. *)
Theorem C63_orientation_refuted : exists L w, mvn_shape L /\ l_mvn L 0 [1; 0; 0; 0] (repeat [0; 0; 0; 0] 4) 200 =
    Ok (map (fun p => let '(a, b, d, f) := p in [a; b; d; f]) tilted) /\
  Forall (fun p => let '(a, b, d, f) := p in exists x, Rabs x <= 1 / 2 /\ same_angle 180 (theta_of a b d f) x) tilted /\
  conf_one L mc_opt (Some (spike 2 9 (RtoC 0), spike 2 9 (RtoC 0))) None 1 0 1 0 0 0 0 0 = Ok w /\
  ci_theta w = Fin (1.96 * (89 + 1 / 2) / 0.6745).
Proof. exact tilted_full. Qed.
Print Assumptions C63_orientation_refuted.

(** C64.  The covariance repair stops after at most 101 adjustments with a symmetric matrix that passed the
    positive-definiteness test, or gives up with the diagonal of its argument. *)
Theorem C64_result : forall L n A r w k, nearestSPD L n A = Ok (r, w, k) ->
  (w = false /\ (1 <= k <= 100)%nat /\ square n r /\ symmetric n r /\ l_is_PD L r = true) \/
  (w = true /\ k = 101%nat /\ diagonal_of n A r).
Proof. exact nearest_ok. Qed.
Print Assumptions C64_result.

(** It fails only when a linear-algebra routine does. *)
Theorem C64_errors : forall L n A e, nearestSPD L n A = Err e -> (exists X, l_svd L X = Err e) \/ (exists X, l_eigvals L X = Err e).
Proof. exact nearest_err. Qed.
Print Assumptions C64_errors.

(** A symmetric positive semi-definite argument is returned unchanged, apart from what is added to its
    diagonal. *)
Theorem C64_semidefinite_kept : forall L n A r k, svd_exact L n -> (forall x, 0 <= l_spacing L x) -> semidefinite n A ->
  nearestSPD L n A = Ok (r, false, k) ->
  exists y, 0 <= y /\ square n r /\ forall i j, (i < n)%nat -> (j < n)%nat -> entry_of r i j = entry_of A i j + y * delta i j.
Proof. exact nearest_semidefinite. Qed.
Print Assumptions C64_semidefinite_kept.

Example C64_example : svd_exact one_lib 1 /\ semidefinite 1 [[4]] /\ exists r k, nearestSPD one_lib 1 [[4]] = Ok (r, false, k).
Proof. exact one_lib_example. Qed.

(** C65.  Monte-Carlo intervals with inference: NotImplementedError, unless an error occurs that would occur
    without inference too; solve never returns. *)
Theorem C65_stage : forall L o i s tin t e elor xraw xmod W B nm xs, o_infer o = Some i -> o_linci o = false ->
  confidence L o s tin t e elor xraw xmod W B nm xs =
  match confidence L (without_inference o) s tin t e elor xraw xmod W B nm xs with
  | Ok _ => Err NotImplementedError
  | Err x => Err x
  end.
Proof. exact mc_infer_stage. Qed.
Print Assumptions C65_stage.

Theorem C65_solve : forall L t u v lat opts b d, unique_keys opts ->
  setting opts "conf_int" (PStr "MC") -> setting opts "infer" (PDict b d) ->
  forall c, solve L t u v lat opts <> Ok c.
Proof. exact mc_infer_solve. Qed.
Print Assumptions C65_solve.
Example C65_example : let opts := [("conf_int", PStr "MC"); ("infer", PDict false [("inferred_names", PSeq [PStr "K2"])])] in
  unique_keys opts /\ setting opts "conf_int" (PStr "MC") /\ exists b d, setting opts "infer" (PDict b d).
Proof.
  split; [|split].
  - unfold unique_keys. cbn. repeat constructor; cbn; intros H; decompose [or] H; try discriminate; auto.
  - left. left. reflexivity.
  - eexists. eexists. left. right. left. reflexivity.
Qed.

(** C76.  An inferred constituent of scalar data has the amplitude of its reference times a fixed ratio and the phase
    of its reference plus a fixed angle.  When the two coefficients of the reference have the same variance, both
    half-widths are those of the reference times the ratio divided by the square root of 2: neither the
    amplitude interval (ratio) nor the phase interval (1) is the propagated one. *)
Theorem C76_inferred_refuted : forall ref X Y v, X <> 0 \/ Y <> 0 -> 0 <= v -> r_Rm ref = map Cconj (r_Rp ref) ->
  let w := linear1 X Y (Fin v) (Fin v) None in exists a b, ci_maj w = Fin a /\ ci_g w = Fin b /\
  Forall2 (fun rho c => ci_maj c = Fin (Cmod rho / sqrt 2 * a) /\ ci_g c = Fin (Cmod rho / sqrt 2 * b))
    (r_Rp ref) (conf_inferred false ref X Y 0 0 (ci_vc w)).
Proof. exact inferred_widths. Qed.
Print Assumptions C76_inferred_refuted.
Example C76_example : exists ref, r_Rp ref = [(1 / 2, 0)] /\ r_Rm ref = map Cconj (r_Rp ref).
Proof.
  exists {| r_name := "S2"; r_lind := 56; r_frq := 1 / 12; r_Rp := [(1 / 2, 0)]; r_Rm := [(1 / 2, - 0)];
            r_Iname := ["K2"]; r_Ilind := [58%nat]; r_Ifrq := [1 / 12] |}. split; reflexivity.
Qed.
