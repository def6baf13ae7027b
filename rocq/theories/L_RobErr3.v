(** Intervals of an analysis with sample weights: uniqueness, closed forms, the datum of the record. *)
From Coq Require Import Lia Lra Permutation.
From Coquelicot Require Import Coquelicot.
From Verif Require Import M_Base M_Lib M_Options M_Time M_Slvinit M_Ellipse M_Conf M_Diag M_Solve M_Recon S_Dict S_Options S_Order S_Basis S_Fit S_Ellipse S_Recon S_Model S_Conf S_Errors S_RobustErr
  L_Base L_Options L_SolveInv L_OptSolve L_Slv L_Slv2 L_Select L_Fit L_Angle L_Ellipse L_Ellipse2 L_Core L_Lsq L_Model L_Model2 L_Model3 L_Model4 L_Model5 L_Model6 L_Model7 L_Model8 L_Model9 L_Conf L_Conf2 L_Conf3 L_Conf4 L_Errors5 L_Errors6 L_RobErr L_RobErr2.
Open Scope R_scope.
Open Scope string_scope.

(** ** The factors are determined *)
Definition wdiff (w o o' : list R) : R := rsum (map (fun p => if Req_EM_T (fst p) 0 then 0 else (fst (snd p) - snd (snd p)) ^ 2 / fst p) (combine w (combine o o'))).
Lemma mean_wsquares : forall w o o', length o = length w -> length o' = length w ->
  weighted_squares w (mean_of o o') = (weighted_squares w o + weighted_squares w o') / 2 - wdiff w o o' / 4.
Proof.
  unfold weighted_squares, weighted_products, wdiff, mean_of. induction w as [|a w IH]; intros [|x o] [|y o'] H1 H2; try discriminate; [cbn; field|].
  cbn [combine map fst snd]. rewrite !rsum_cons. cbn [fst snd]. rewrite IH by (cbn in *; lia). destruct (Req_EM_T a 0); [field|]. field. auto.
Qed.
Lemma term_nonneg a z : 0 <= a -> 0 <= (if Req_EM_T a 0 then 0 else z ^ 2 / a).
Proof.
  intros H. destruct (Req_EM_T a 0); [lra|]. apply Rmult_le_pos; [apply pow2_ge_0|]. left. apply Rinv_0_lt_compat. lra.
Qed.
Lemma wdiff_nonneg : forall w o o', Forall (fun a => 0 <= a) w -> 0 <= wdiff w o o'.
Proof.
  unfold wdiff. induction w as [|a w IH]; intros [|x o] [|y o'] H; try (unfold rsum; cbn; lra). inversion H; subst.
  cbn [combine map fst snd]. rewrite rsum_cons. cbn [fst snd]. assert (T := term_nonneg a (x - y) H2). assert (I := IH o o' H3). lra.
Qed.
Lemma leaves_tail a w x o : leaves_out (a :: w) (x :: o) -> (a = 0 -> x = 0) /\ leaves_out w o.
Proof. intros H. split; [exact (H 0%nat)|]. intros k. exact (H (S k)). Qed.
Lemma wdiff_zero : forall w o o', Forall (fun a => 0 <= a) w -> length o = length w -> length o' = length w ->
  leaves_out w o -> leaves_out w o' -> wdiff w o o' <= 0 -> o = o'.
Proof.
  unfold wdiff. induction w as [|a w IH]; intros [|x o] [|y o'] H H1 H2 L1 L2 D; try discriminate; auto. inversion H; subst.
  cbn [combine map fst snd] in D. rewrite rsum_cons in D. cbn [fst snd] in D.
  apply leaves_tail in L1, L2. destruct L1 as [Z1 L1], L2 as [Z2 L2].
  assert (T := term_nonneg a (x - y) H4). assert (I := wdiff_nonneg w o o' H5). unfold wdiff in I.
  f_equal; [|apply IH; auto; lra].
  destruct (Req_EM_T a 0) as [Z|N]; [rewrite (Z1 Z), (Z2 Z); reflexivity|].
  assert (E : (x - y) ^ 2 / a = 0) by lra.
  assert (Q : (x - y) ^ 2 = 0). { replace ((x - y) ^ 2) with ((x - y) ^ 2 / a * a) by (field; exact N). rewrite E. ring. }
  destruct (Req_dec (x - y) 0) as [K|K]; [lra|]. exfalso. apply (pow_nonzero _ 2) in K. contradiction.
Qed.
Lemma mean_leaves w o o' : length o = length o' -> leaves_out w o -> leaves_out w o' -> leaves_out w (mean_of o o').
Proof.
  intros E H H' k Z. destruct (Nat.lt_ge_cases k (length o)) as [Hk|Hk]; [|apply nth_overflow; rewrite mean_len by auto; auto].
  unfold mean_of. rewrite (nth_indep _ 0 ((fun p => (fst p + snd p) / 2) (0, 0))) by (rewrite map_length, combine_length; lia).
  rewrite (map_nth (fun p => (fst p + snd p) / 2)). rewrite combine_nth by auto. cbn [fst snd]. rewrite (H k Z), (H' k Z). field.
Qed.
Lemma wbest_unique c sm w i b o o' : Forall (fun a => 0 <= a) w -> length w = length sm ->
  best_weighted c sm w i b o -> best_weighted c sm w i b o' -> o = o'.
Proof.
  intros W0 Lw (U & Lo & M) (U' & Lo' & M'). assert (E : length o = length w /\ length o' = length w) by (destruct U, U'; split; congruence).
  destruct E as [E1 E2]. apply (wdiff_zero w); auto. assert (E : length o = length o') by congruence.
  assert (H := M _ (mean_unbiased _ _ _ _ _ _ U U') (mean_leaves w _ _ E Lo Lo')). rewrite mean_wsquares in H by auto.
  assert (M1 := M _ U' Lo'). assert (M2 := M' _ U Lo). lra.
Qed.

Lemma measure_unique part c sm w q q' : noise_measure part c sm w q -> noise_measure part c sm w q' -> q = q'.
Proof. intros (rs & H & ->) (rs' & H' & ->). now rewrite (residuals_same _ _ _ H _ H'). Qed.

Lemma wsquares_nonneg : forall w o, Forall (fun a => 0 <= a) w -> 0 <= weighted_squares w o.
Proof.
  unfold weighted_squares, weighted_products. induction w as [|a w IH]; intros [|x o] H; try (unfold rsum; cbn; lra). inversion H; subst.
  cbn [combine map fst snd]. rewrite rsum_cons. cbn [fst snd]. assert (T := term_nonneg a x H2). assert (I := IH o H3).
  destruct (Req_EM_T a 0); [lra|]. replace (x * x / a) with (x ^ 2 / a) by (field; auto). lra.
Qed.
Lemma wsquares_zero : forall w o, Forall (fun a => 0 <= a) w -> length o = length w -> leaves_out w o -> weighted_squares w o <= 0 -> Forall (fun x => x = 0) o.
Proof.
  unfold weighted_squares, weighted_products. induction w as [|a w IH]; intros [|x o] H E Lo D; try discriminate; constructor; inversion H; subst; apply leaves_tail in Lo; destruct Lo as [Z Lo];
    cbn [combine map fst snd] in D; rewrite rsum_cons in D; cbn [fst snd] in D; assert (T := term_nonneg a x H2); assert (I := wsquares_nonneg w o H3); unfold weighted_squares, weighted_products in I.
  - destruct (Req_EM_T a 0) as [K|K]; [auto|]. assert (Q : x * x / a = 0) by (replace (x ^ 2 / a) with (x * x / a) in T by (field; auto); lra).
    assert (x * x = 0). { replace (x * x) with (x * x / a * a) by (field; exact K). rewrite Q. ring. } nra.
  - apply IH; auto. destruct (Req_EM_T a 0) as [K|K]; [lra|]. replace (x ^ 2 / a) with (x * x / a) in T by (field; auto). lra.
Qed.
Lemma wsum_zero : forall o sm f, Forall (fun x => x = 0) o -> wsum o sm f = 0.
Proof.
  unfold wsum. induction o as [|x o IH]; intros [|s sm] f H; try reflexivity. inversion H; subst. cbn [combine map]. rewrite rsum_cons, IH by auto. cbn [fst snd]. ring.
Qed.
Lemma wbest_pos c sm w i b o : Forall (fun a => 0 <= a) w -> length w = length sm -> In i (c_lind c) -> best_weighted c sm w i b o -> 0 < weighted_squares w o.
Proof.
  intros W0 Lw Hi ((Lo & U & _) & LO & _). destruct (Rle_lt_dec (weighted_squares w o) 0) as [D|]; auto. exfalso.
  assert (Z := wsquares_zero w o W0 ltac:(congruence) LO D). destruct (U i Hi) as [U1 U2]. rewrite (wsum_zero _ _ _ Z) in U1. rewrite (wsum_zero _ _ _ Z) in U2. rewrite Nat.eqb_refl in U1, U2.
  destruct b; cbn in U1, U2; lra.
Qed.

(** ** no interval when the measure of the noise is negative *)
Lemma neg_sqrt a : a < 0 -> xsqrt (Fin a) = NaN.
Proof. intros H. cbn. destruct (Rlt_dec a 0); [reflexivity|lra]. Qed.
Lemma xmul_nan x : xmul x NaN = NaN. Proof. now destruct x. Qed.
Lemma xadd_nan_l x : xadd NaN x = NaN. Proof. now destruct x. Qed.
Lemma xadd_nan_r x : xadd x NaN = NaN. Proof. now destruct x. Qed.
Lemma x4_nan f s2 s3 s4 : x4 f (NaN, s2, s3, s4) = NaN.
Proof. destruct f as [[[f1 f2] f3] f4]. unfold x4. replace (xsq NaN) with NaN by reflexivity. rewrite xmul_nan, !xadd_nan_l. reflexivity. Qed.
Lemma linci_nan Xu Yu Xv Yv s2 s3 s4 : fst (fst (ut_linci Xu Yu Xv Yv NaN s2 s3 s4)) = NaN /\ fst (snd (ut_linci Xu Yu Xv Yv NaN s2 s3 s4)) = NaN.
Proof.
  unfold ut_linci. cbv zeta. rewrite !x4_nan. rewrite !xmul_nan. destruct (Req_EM_T Xv 0); cbn [fst snd]; auto.
Qed.
Lemma linear1_nan X Y a b : a < 0 -> ci_maj (linear1 X Y (Fin a) (Fin b) None) = NaN /\ ci_g (linear1 X Y (Fin a) (Fin b) None) = NaN.
Proof.
  intros H. unfold linear1. rewrite neg_sqrt by auto. destruct (linci_nan X Y 0 0 (xsqrt (Fin b)) (Fin 0) (Fin 0)) as [E1 E2].
  destruct (ut_linci _ _ _ _ _ _ _ _) as [[s1 s1'] [s2 s2']]. cbn [fst snd] in E1, E2. subst. cbn [ci_maj ci_g]. now rewrite xmul_nan.
Qed.
Lemma linear2_nan Xu Yu Xv Yv a b d e : a < 0 \/ d < 0 ->
  ci_maj (linear2 Xu Yu Xv Yv (Fin a) (Fin b) (Fin d) (Fin e) None) = NaN /\ ci_g (linear2 Xu Yu Xv Yv (Fin a) (Fin b) (Fin d) (Fin e) None) = NaN.
Proof.
  intros H. unfold linear2, csig, xcomplex.
  assert (E : match xsqrt (Fin d) with Fin _ => xsqrt (Fin a) | _ => NaN end = NaN).
  { destruct H as [H|H]; [rewrite (neg_sqrt a H); now destruct (xsqrt (Fin d))|rewrite (neg_sqrt d H); reflexivity]. }
  rewrite E. destruct (linci_nan Xu Yu Xv Yv (match xsqrt (Fin e) with Fin _ => xsqrt (Fin b) | _ => NaN end) (xsqrt (Fin d)) (xsqrt (Fin e))) as [E1 E2].
  destruct (ut_linci _ _ _ _ _ _ _ _) as [[s1 s1'] [s2 s2']]. cbn [fst snd] in E1, E2. subst. cbn [ci_maj ci_g]. now rewrite xmul_nan.
Qed.

(** ** The whole analysis *)
Lemma wintervals L t u v lat opts sm c w : analysis L t u v lat opts sm c -> inv_exact L ->
  setting opts "infer" PNone -> setting opts "conf_int" (PStr "linear") -> setting opts "white" (PBool true) ->
  (params c < length sm)%nat -> c_weights c = map Fin w ->
  Forall (fun a => 0 <= a <= 1) w /\ length w = length sm /\
  forall r i, In r (rows c) -> w_lind r = Some i -> In i (c_lind c) /\
  exists oX oY qu qv Xu Yu Xv Yv, best_weighted c sm w i true oX /\ best_weighted c sm w i false oY /\
    noise_measure fst c sm w qu /\ noise_measure snd c sm w qv /\
    let x := weighted_squares w oX in let y := weighted_squares w oY in
    if o_twodim (c_opt c) then
      let wi := linear2 Xu Yu Xv Yv (Fin (x * qu)) (Fin (y * qu)) (Fin (x * qv)) (Fin (y * qv)) None in
      w_Lsmaj r = Some (Some (maj_of Xu Yu Xv Yv)) /\ w_Lsmin r = Some (Some (min_of Xu Yu Xv Yv)) /\
      w_theta r = Some (Some (theta_of Xu Yu Xv Yv)) /\ w_g r = Some (g_of Xu Yu Xv Yv) /\
      w_Lsmaj_ci r = Some (Some (ci_maj wi)) /\ w_Lsmin_ci r = Some (Some (ci_min wi)) /\
      w_theta_ci r = Some (Some (ci_theta wi)) /\ w_g_ci r = Some (Some (ci_g wi))
    else
      let wi := linear1 Xu Yu (Fin (x * qu)) (Fin (y * qu)) None in
      w_A r = Some (Some (A_of Xu Yu)) /\ w_g r = Some (g1_of Xu Yu) /\
      w_A_ci r = Some (Some (ci_maj wi)) /\ w_g_ci r = Some (Some (ci_g wi)).
Proof.
  intros AN IX IN CI WH PN HW.
  destruct (wrun_conf _ _ _ _ _ _ _ _ true _ AN IX IN CI PN HW) as (W1 & W2 & si & frq & p & H1 & H2 & H3 & H).
  split; [exact W1|]. split; [exact W2|]. intros r i Hr Hl. split.
  { unfold rows in Hr. apply in_map_iff in Hr. destruct Hr as (k & <- & _). cbn [crow_of w_lind] in Hl. eapply nth_error_In; exact Hl. }
  assert (p = None) as ->.
  { unfold wnoise_behind in H3. destruct (o_white (c_opt c)) eqn:E; [exact H3|].
    apply (set_white _ _ _ _ _ _ (an_keys _ _ _ _ _ _ _ _ AN) _ (an_solve _ _ _ _ _ _ _ _ AN) _ WH) in E. unfold falsy in E. destruct E as [E|[E|[E|[E|[E|[b E]]]]]]; discriminate E. }
  destruct (H r i Hr Hl) as (k & oX & oY & qu & qv & quv & gm & nc & wi & g & th & Xu & Yu & Xv & Yv & Q1 & Q2 & Q3 & Q4 & Q5 & _ & ((V1 & V2 & V3 & V4) & _) & Elin & W & D).
  exists oX, oY, qu, qv, Xu, Yu, Xv, Yv. do 4 (split; [assumption|]). unfold conf_one in W. cbv zeta in *. rewrite Elin, V1, V2, V3, V4 in W. apply Ok_inj in W.
  destruct (o_twodim (c_opt c)); change (n_vv None k) with (@None xr) in W || change (n_uu None k) with (@None xr) in W; rewrite W; tauto.
Qed.
Lemma range_nonneg w : Forall (fun a => 0 <= a <= 1) w -> Forall (fun a => 0 <= a) w.
Proof. intros H. eapply Forall_impl; [|exact H]. intros x Hx. cbv beta in Hx. lra. Qed.

Lemma scalar_weighted L t u lat opts sm c w : analysis L t u None lat opts sm c -> inv_exact L ->
  setting opts "infer" PNone -> setting opts "conf_int" (PStr "linear") -> setting opts "white" (PBool true) ->
  (params c < length sm)%nat -> c_weights c = map Fin w ->
  forall r i A g, In r (rows c) -> w_lind r = Some i -> w_A r = Some (Some A) -> w_g r = Some g -> A <> 0 ->
  forall oX oY q, best_weighted c sm w i true oX -> best_weighted c sm w i false oY -> noise_measure fst c sm w q ->
  let C := cos (rad g) in let S := sin (rad g) in let x := q * weighted_squares w oX in let y := q * weighted_squares w oY in
  (0 <= q -> w_A_ci r = Some (Some (Fin (196 / 100 * sqrt (C ^ 2 * x + S ^ 2 * y)))) /\
             w_g_ci r = Some (Some (Fin (196 / 100 * (180 / PI) / A * sqrt (S ^ 2 * x + C ^ 2 * y))))) /\
  (q < 0 -> w_A_ci r = Some (Some NaN) /\ w_g_ci r = Some (Some NaN)).
Proof.
  intros AN IX IN CI WH PN HW r i A g Hr Hl HA Hg NZ oX oY q BX BY NV.
  destruct (wintervals _ _ _ _ _ _ _ _ _ AN IX IN CI WH PN HW) as (W1 & W2 & H). apply range_nonneg in W1.
  destruct (H r i Hr Hl) as (Hi & oX' & oY' & qu & qv & X & Y & Xv & Yv & BX' & BY' & NU & _ & H').
  rewrite (wbest_unique _ _ _ _ _ _ _ W1 W2 BX' BX), (wbest_unique _ _ _ _ _ _ _ W1 W2 BY' BY), (measure_unique _ _ _ _ _ _ NU NV) in *.
  clear BX' BY' NU oX' oY' qu H. rename H' into H.
  rewrite (set_twodim _ _ _ _ _ _ (an_keys _ _ _ _ _ _ _ _ AN) _ (an_solve _ _ _ _ _ _ _ _ AN)) in H. cbn [is2d] in H.
  cbv zeta in H. destruct H as (H1 & H2 & H3 & H4). cbv zeta.
  rewrite H1 in HA. injection HA as EA. rewrite H2 in Hg. injection Hg as Eg.
  destruct (cs2cep1 X Y) as [[[A' mi] th] g'] eqn:E.
  assert (A' = A) by (rewrite <- EA; unfold A_of; now rewrite E). assert (g' = g) by (rewrite <- Eg; unfold g1_of; now rewrite E). subst A' g'.
  destruct (cep1_lemma _ _ _ _ _ _ E) as (A0 & _ & _ & _ & AS & M).
  assert (XE : A * cos (rad g) = X).
  { generalize (M 0). unfold component. rewrite cos_minus, cos_0, sin_0. intros; lra. }
  assert (YE : A * sin (rad g) = Y).
  { generalize (M (PI / 2)). unfold component. rewrite cos_minus, cos_PI2, sin_PI2. intros; lra. }
  assert (XY : X <> 0 \/ Y <> 0).
  { destruct (Req_dec X 0) as [ZX|]; [|auto]. destruct (Req_dec Y 0) as [ZY|]; [|auto]. exfalso. apply NZ.
    rewrite ZX, ZY in AS. destruct (Req_dec A 0) as [|K]; auto. apply (pow_nonzero _ 2) in K. lra. }
  assert (SX := wsquares_nonneg w oX W1). assert (SY := wsquares_nonneg w oY W1). rewrite H3, H4. split.
  - intros Q0. destruct (linear1_closed X Y (weighted_squares w oX * q) (weighted_squares w oY * q) XY) as [K1 K2]; [now apply Rmult_le_pos|now apply Rmult_le_pos|].
    rewrite K1, K2. rewrite A_of_sq in EA. rewrite EA. rewrite <- XE, <- YE.
    replace (A * cos (rad g) / A) with (cos (rad g)) by (field; exact NZ). replace (A * sin (rad g) / A) with (sin (rad g)) by (field; exact NZ).
    rewrite !(Rmult_comm q). auto.
  - intros Q0. assert (PX := wbest_pos _ _ _ _ _ _ W1 W2 Hi BX). destruct (linear1_nan X Y (weighted_squares w oX * q) (weighted_squares w oY * q)) as [K1 K2]; [nra|].
    rewrite K1, K2. auto.
Qed.

Lemma vector_weighted L t u v lat opts sm c w : analysis L t u (Some v) lat opts sm c -> inv_exact L ->
  setting opts "infer" PNone -> setting opts "conf_int" (PStr "linear") -> setting opts "white" (PBool true) ->
  (params c < length sm)%nat -> c_weights c = map Fin w ->
  forall r i, In r (rows c) -> w_lind r = Some i ->
  forall oX oY qu qv, best_weighted c sm w i true oX -> best_weighted c sm w i false oY -> noise_measure fst c sm w qu -> noise_measure snd c sm w qv ->
  exists Xu Yu Xv Yv,
  w_Lsmaj r = Some (Some (maj_of Xu Yu Xv Yv)) /\ w_Lsmin r = Some (Some (min_of Xu Yu Xv Yv)) /\
  w_theta r = Some (Some (theta_of Xu Yu Xv Yv)) /\ w_g r = Some (g_of Xu Yu Xv Yv) /\
  (0 <= qu -> 0 <= qv ->
   (~ circular Xu Yu Xv Yv -> exists dmaj dmin dth dg,
     partials maj_of Xu Yu Xv Yv dmaj /\ partials min_of Xu Yu Xv Yv dmin /\
     turn_partials 180 theta_of Xu Yu Xv Yv dth /\ turn_partials 180 g_of Xu Yu Xv Yv dg /\
     let x := weighted_squares w oX in let y := weighted_squares w oY in
     let half_width := fun d => Fin (196 / 100 * propagated d (sqrt (qu * x)) (sqrt (qu * y)) (sqrt (qv * x)) (sqrt (qv * y))) in
     w_Lsmaj_ci r = Some (Some (half_width dmaj)) /\ w_g_ci r = Some (Some (half_width dg)) /\
     (Xv <> 0 -> w_Lsmin_ci r = Some (Some (half_width dmin)) /\ w_theta_ci r = Some (Some (half_width dth)))) /\
   (Xv = 0 -> w_Lsmin_ci r = Some (Some (Fin 0)) /\ w_theta_ci r = Some (Some (Fin 0)))) /\
  (qu < 0 \/ qv < 0 -> w_Lsmaj_ci r = Some (Some NaN) /\ w_g_ci r = Some (Some NaN)).
Proof.
  intros AN IX IN CI WH PN HW r i Hr Hl oX oY qu qv BX BY NU NV.
  destruct (wintervals _ _ _ _ _ _ _ _ _ AN IX IN CI WH PN HW) as (W1 & W2 & H). apply range_nonneg in W1.
  destruct (H r i Hr Hl) as (Hi & oX' & oY' & qu' & qv' & Xu & Yu & Xv & Yv & BX' & BY' & NU' & NV' & H').
  rewrite (wbest_unique _ _ _ _ _ _ _ W1 W2 BX' BX), (wbest_unique _ _ _ _ _ _ _ W1 W2 BY' BY), (measure_unique _ _ _ _ _ _ NU' NU), (measure_unique _ _ _ _ _ _ NV' NV) in *.
  clear BX' BY' NU' NV' oX' oY' qu' qv' H. rename H' into H.
  rewrite (set_twodim _ _ _ _ _ _ (an_keys _ _ _ _ _ _ _ _ AN) _ (an_solve _ _ _ _ _ _ _ _ AN)) in H. cbn [is2d] in H.
  cbv zeta in *. destruct H as (H1 & H2 & H3 & H4 & H5 & H6 & H7 & H8).
  exists Xu, Yu, Xv, Yv. repeat (split; [assumption|]).
  assert (PX := wbest_pos _ _ _ _ _ _ W1 W2 Hi BX). assert (SY := wsquares_nonneg w oY W1). set (x := weighted_squares w oX) in *. set (y := weighted_squares w oY) in *.
  assert (SX : 0 <= x) by lra. split.
  - intros Q0 Q1. split.
    + intros NC. destruct (linear2_widths _ _ _ _ (x * qu) (y * qu) (x * qv) (y * qv) NC) as
      (dmaj & dmin & dth & dg & P1 & P2 & P3 & P4 & E); try (now apply Rmult_le_pos).
      exists dmaj, dmin, dth, dg. repeat (split; [assumption|]). cbv zeta in E. destruct E as (E1 & E2 & E3 & E4).
      rewrite H5, H6, H7, H8, E1, E2, E3, E4. rewrite !(Rmult_comm x), !(Rmult_comm y). split; [reflexivity|]. split; [reflexivity|].
      intros N. destruct (Req_EM_T _ 0); [contradiction|auto].
    + intros Z. rewrite H6, H7, Z. destruct (zero_Xv Xu Yu Yv (Fin (x * qu)) (Fin (y * qu)) (Fin (x * qv)) (Fin (y * qv)) None) as [-> ->]. auto.
  - intros Q0. destruct (linear2_nan Xu Yu Xv Yv (x * qu) (y * qu) (x * qv) (y * qv)) as [K1 K2]; [destruct Q0; [left|right]; nra|].
    now rewrite H5, H8, K1, K2.
Qed.

Lemma weighted_exist L t u v lat opts sm c w : analysis L t u v lat opts sm c -> inv_exact L ->
  setting opts "infer" PNone -> setting opts "conf_int" (PStr "linear") ->
  (params c < length sm)%nat -> c_weights c = map Fin w ->
  Forall (fun a => 0 <= a <= 1) w /\ length w = length sm /\
  forall r i, In r (rows c) -> w_lind r = Some i ->
  (exists! oX, best_weighted c sm w i true oX) /\ (exists! oY, best_weighted c sm w i false oY) /\
  (exists! qu, noise_measure fst c sm w qu) /\ (exists! qv, noise_measure snd c sm w qv).
Proof.
  intros AN IX IN CI PN HW.
  destruct (wrun_conf _ _ _ _ _ _ _ _ true _ AN IX IN CI PN HW) as (W1 & W2 & si & frq & p & _ & _ & _ & H).
  split; [exact W1|]. split; [exact W2|]. intros r i Hr Hl. apply range_nonneg in W1.
  destruct (H r i Hr Hl) as (k & oX & oY & qu & qv & quv & gm & nc & wi & g & th & Xu & Yu & Xv & Yv & _ & BX & BY & NU & NV & _).
  repeat split; [exists oX|exists oY|exists qu|exists qv]; (split; [assumption|]); intros; (eapply wbest_unique || eapply measure_unique); eassumption.
Qed.

(** ** the datum *)
Lemma measure_shift part K c c' sm w rs q q' : (forall a b, part (Cplus a b) = part a + part b) -> length w = length sm ->
  residuals c sm rs -> residuals c' (on_datum K sm) rs -> params c' = params c -> (params c < length sm)%nat ->
  noise_measure part c sm w q -> noise_measure part c' (on_datum K sm) w q' ->
  q' = q + part K * rsum (map (fun p => fst p * part (snd p)) (combine w rs)) / (INR (length sm) - INR (params c)).
Proof.
  intros HP Lw R1 R2 EP PN (r1 & R1' & ->) (r2 & R2' & ->).
  rewrite (residuals_same _ _ _ R1' _ R1), (residuals_same _ _ _ R2' _ R2), EP. clear r1 R1' r2 R2' R2.
  replace (length (on_datum K sm)) with (length sm) by (unfold on_datum; now rewrite map_length).
  assert (D : INR (length sm) - INR (params c) <> 0) by (apply lt_INR in PN; lra). set (dof := INR (length sm) - INR (params c)) in *. clearbody dof.
  match goal with |- ?a / _ = ?b / _ + part K * ?s / _ => cut (a = b + part K * s); [intros ->; field; exact D|] end.
  clear EP PN D dof. unfold residuals in R1. revert w Lw. induction R1 as [|x r l k H _ IH]; intros [|a w] Lw; try discriminate.
  { unfold rsum; cbn; ring. }
  cbn [on_datum map combine fst snd]. rewrite !rsum_cons. cbn [fst snd]. fold (on_datum K l). rewrite IH by (cbn in Lw; lia). rewrite HP. ring.
Qed.
