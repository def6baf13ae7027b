(** Intervals of an analysis with sample weights and coloured noise. *)
From Coq Require Import Lia Lra Permutation.
From Coquelicot Require Import Coquelicot.
From Verif Require Import M_Base M_Lib M_Options M_Time M_Slvinit M_Ellipse M_Period M_Conf M_Diag M_Solve M_Recon S_Dict S_Options S_Order S_Basis S_Fit S_Ellipse S_Slv S_Recon S_Model S_Conf S_Errors S_Period S_Noise S_RobustErr S_RobNoise
  L_Base L_Options L_SolveInv L_OptSolve L_Slv L_Slv2 L_Select L_Fit L_Lsq L_Angle L_Ellipse L_Ellipse2 L_Core L_Model L_Model2 L_Model3 L_Model7 L_Model9 L_Model11 L_Conf L_Conf2 L_Conf3 L_Conf4 L_Period L_Period2 L_Period3 L_Period9 L_Errors5 L_Errors6 L_Noise L_Noise2 L_Noise3 L_RobErr L_RobErr2 L_RobErr3.
Open Scope R_scope.
Open Scope string_scope.

Lemma weighted_len w rs : length w = length rs -> length (weighted w rs) = length rs.
Proof. intros H. unfold weighted. rewrite map_length, combine_length. lia. Qed.

Lemma even_noise_w L t u v lat opts sm c xs si frq p w rs : analysis L t u v lat opts sm c ->
  normalize_time (l_parse L) (arr_data t) (o_epoch (c_opt c)) = Ok xs -> o_equi (c_opt c) = true -> o_white (c_opt c) = false ->
  increasing (valid_times xs) -> slvinit (l_parse L) t u v lat (o_epoch (c_opt c)) = Ok si -> (2 <= length sm)%nat -> residuals c sm rs ->
  length w = length sm -> wnoise_behind L c sm w si frq p ->
  let tin := valid_times xs in let T := effective_length tin in let wr := weighted w rs in
  exists U lu pu q, p = Some (pu, q) /\ residual_series true tin (map fst sm) (map fst wr) tin U /\ length U = length tin /\
    noise_spectrum tin U frq lu /\ Forall2 (noise_at T lu) frq pu /\
    (o_twodim (c_opt c) = true -> exists V lv pv puv, residual_series true tin (map fst sm) (map snd wr) tin V /\ length V = length tin /\
      noise_spectrum tin V frq lv /\ q = Some (pv, puv) /\ Forall2 (noise_at T lv) frq pv).
Proof.
  intros AN Hx He Hw Hi Hs Hn RS Lw NB. cbv zeta.
  destruct (even_length _ _ _ _ _ _ _ _ _ _ AN Hx He Hi Hs Hn) as (ET & K & EL).
  unfold wnoise_behind in NB. rewrite Hw in NB. destruct NB as (rs' & pp & RS' & NB & ->).
  rewrite (residuals_same _ _ _ RS' _ RS) in NB. clear rs' RS'. rewrite ET, EL, He in NB. destruct pp as [pu q].
  assert (KL := kept_len _ _ K). rewrite map_length in KL.
  assert (N2 : (2 <= length (valid_times xs))%nat) by lia.
  assert (LR : length rs = length sm) by (symmetry; eapply F2len; exact RS).
  fold (weighted w rs) in NB. assert (LW := weighted_len w rs (eq_trans Lw (eq_sym LR))).
  set (wr := weighted w rs) in *. clearbody wr.
  assert (Lf : length (map fst wr) = length (map fst sm)) by (rewrite map_length; rewrite map_length; exact (eq_trans LW LR)).
  assert (Ls : length (map snd wr) = length (map fst sm)) by (rewrite map_length; rewrite map_length; exact (eq_trans LW LR)).
  assert (Lv : forall v', oif (o_twodim (c_opt c)) (map snd wr) = Some v' -> length v' = length (map fst sm)).
  { intros v' E. destruct (o_twodim (c_opt c)); cbn [oif] in E; [injection E as <-; exact Ls|discriminate]. }
  assert (Lo : o_twodim (c_opt c) = true -> oif (o_twodim (c_opt c)) (map snd wr) <> None) by (intros ->; discriminate).
  destruct (noise_levels _ _ _ _ _ _ _ _ _ _ _ (effective_pos _ Hi N2) (kept_incr _ _ K Hi) Lf
    Lv Lo NB) as (times & U & V & pp & R1 & R2 & BP & FU & FV).
  assert (times = valid_times xs) by apply R1. subst times.
  assert (KL' : (length (map fst sm) <= length (valid_times xs))%nat) by (now rewrite map_length).
  assert (LU := series_len _ _ _ _ _ _ Lf KL' R1 eq_refl).
  assert (LV : forall w, V = Some w -> length w = length (valid_times xs)).
  { intros w0 ->. destruct (o_twodim (c_opt c)); cbn [oif] in R2; [|destruct R2]. exact (series_len _ _ _ _ _ _ Ls KL' R2 eq_refl). }
  destruct (band_even' L (valid_times xs) U V frq LU LV N2 (Hi 0%nat ltac:(lia))) as (near & pp' & NR & BP' & BU & BV).
  rewrite BP in BP'. apply Ok_inj in BP'. subst pp'.
  exists U, (b_Puu pp), pu, q. split; [reflexivity|]. split; [exact R1|]. split; [exact LU|]. split; [exists near; split; assumption|]. split; [exact FU|].
  intros TW. rewrite TW in FV, R2. cbn [oif] in R2. destruct V as [V|]; [|destruct R2]. destruct FV as (lv & luv & pv & puv & E1 & E2 & E3 & F1 & F2).
  destruct BV as (q1 & q2 & G1 & G2 & G3 & G4). rewrite E1 in G1. injection G1 as <-.
  exists V, lv, pv, puv. split; [exact R2|]. split; [now apply LV|]. split; [|split; [exact E3|exact F1]].
  assert (EL' : length (even_part V) = length (even_part U)) by (unfold even_part; rewrite !firstn_length, LU, (LV _ eq_refl); reflexivity).
  exists near. rewrite EL'. split; assumption.
Qed.

(** the intervals of any run with linearised intervals *)
Lemma wintervals_any L t u v lat opts sm c w : analysis L t u v lat opts sm c -> inv_exact L ->
  setting opts "infer" PNone -> setting opts "conf_int" (PStr "linear") ->
  (params c < length sm)%nat -> c_weights c = map Fin w ->
  Forall (fun a => 0 <= a <= 1) w /\ length w = length sm /\
  exists si frq p, slvinit (l_parse L) t u v lat (o_epoch (c_opt c)) = Ok si /\ Permutation (map Some frq) (map w_frq (rows c)) /\
  wnoise_behind L c sm w si frq p /\
  forall r i, In r (rows c) -> w_lind r = Some i -> In i (c_lind c) /\
  exists k oX oY qu qv Xu Yu Xv Yv, nth_error frq k = w_frq r /\ best_weighted c sm w i true oX /\ best_weighted c sm w i false oY /\
    noise_measure fst c sm w qu /\ noise_measure snd c sm w qv /\
    let x := weighted_squares w oX in let y := weighted_squares w oY in
    if o_twodim (c_opt c) then
      let wi := linear2 Xu Yu Xv Yv (Fin (x * qu)) (Fin (y * qu)) (Fin (x * qv)) (Fin (y * qv)) (n_vv p k) in
      w_Lsmaj r = Some (Some (maj_of Xu Yu Xv Yv)) /\ w_Lsmin r = Some (Some (min_of Xu Yu Xv Yv)) /\
      w_theta r = Some (Some (theta_of Xu Yu Xv Yv)) /\ w_g r = Some (g_of Xu Yu Xv Yv) /\
      w_Lsmaj_ci r = Some (Some (ci_maj wi)) /\ w_Lsmin_ci r = Some (Some (ci_min wi)) /\
      w_theta_ci r = Some (Some (ci_theta wi)) /\ w_g_ci r = Some (Some (ci_g wi))
    else
      let wi := linear1 Xu Yu (Fin (x * qu)) (Fin (y * qu)) (n_uu p k) in
      w_A r = Some (Some (A_of Xu Yu)) /\ w_g r = Some (g1_of Xu Yu) /\
      w_A_ci r = Some (Some (ci_maj wi)) /\ w_g_ci r = Some (Some (ci_g wi)).
Proof.
  intros AN IX IN CI PN HW.
  destruct (wrun_conf _ _ _ _ _ _ _ _ true _ AN IX IN CI PN HW) as (W1 & W2 & si & frq & p & H1 & H2 & H3 & H).
  split; [exact W1|]. split; [exact W2|]. exists si, frq, p. do 3 (split; [assumption|]). intros r i Hr Hl. split; [eapply row_lind; eauto|].
  destruct (H r i Hr Hl) as (k & oX & oY & qu & qv & quv & gm & nc & wi & g & th & Xu & Yu & Xv & Yv & Q1 & Q2 & Q3 & Q4 & Q5 & _ & ((V1 & V2 & V3 & V4) & _) & Elin & W & D).
  exists k, oX, oY, qu, qv, Xu, Yu, Xv, Yv. do 5 (split; [assumption|]). unfold conf_one in W. cbv zeta in *. rewrite Elin, V1, V2, V3, V4 in W. apply Ok_inj in W.
  destruct (o_twodim (c_opt c)); rewrite W; tauto.
Qed.

Lemma share' P a b q : q <> 0 -> 0 < a -> 0 < b -> P * (a * q) / (a * q + b * q) = P * (a / (a + b)).
Proof. intros. field. split; [lra|]. replace (a * q + b * q) with ((a + b) * q) by ring. apply Rmult_integral_contrapositive. split; lra. Qed.

(** no noise measured: 0/0 *)
Lemma linear1_zero X Y P : ci_maj (linear1 X Y (Fin 0) (Fin 0) (Some P)) = NaN /\ ci_g (linear1 X Y (Fin 0) (Fin 0) (Some P)) = NaN.
Proof.
  assert (E : xdiv (xmul P (Fin 0)) (xadd (Fin 0) (Fin 0)) = NaN).
  { cbn [xadd]. replace (0 + 0) with 0 by ring. unfold xdiv.
    destruct P as [P| | |]; cbn; rewrite ?Ropp_0, ?Rmult_0_r; unfold sgn_inf; rewrite ?Ropp_0; repeat (destruct (Req_EM_T 0 0) as [_|Z]; [|now destruct Z]); repeat (destruct (Rlt_dec 0 0) as [Z|_]; [lra|]); reflexivity. }
  unfold linear1. rewrite E. cbn [xsqrt]. destruct (linci_nan X Y 0 0 NaN (Fin 0) (Fin 0)) as [E1 E2].
  destruct (ut_linci _ _ _ _ _ _ _ _) as [[s1 s1'] [s2 s2']]. cbn [fst snd] in E1, E2. subst. cbn [ci_maj ci_g]. now rewrite xmul_nan.
Qed.

Lemma wcoloured_scalar L t u lat opts sm c w : analysis L t u None lat opts sm c -> inv_exact L ->
  setting opts "infer" PNone -> setting opts "conf_int" (PStr "linear") -> setting opts "white" (PBool false) ->
  (params c < length sm)%nat -> c_weights c = map Fin w ->
  forall xs, normalize_time (l_parse L) (arr_data t) (o_epoch (c_opt c)) = Ok xs -> o_equi (c_opt c) = true -> increasing (valid_times xs) ->
  forall rs, residuals c sm rs ->
  exists series frqs levels,
    residual_series true (valid_times xs) (map fst sm) (map fst (weighted w rs)) (valid_times xs) series /\
    Permutation (map Some frqs) (map w_frq (rows c)) /\ noise_spectrum (valid_times xs) series frqs levels /\
    forall r i A g f, In r (rows c) -> w_lind r = Some i -> w_A r = Some (Some A) -> w_g r = Some g -> A <> 0 -> w_frq r = Some f ->
    forall oX oY q, best_weighted c sm w i true oX -> best_weighted c sm w i false oY -> noise_measure fst c sm w q ->
    let C := cos (rad g) in let S := sin (rad g) in
    let x := weighted_squares w oX / (weighted_squares w oX + weighted_squares w oY) in
    let y := weighted_squares w oY / (weighted_squares w oX + weighted_squares w oY) in
    exists level, noise_at (effective_length (valid_times xs)) levels f level /\
    (q <> 0 -> match level with
    | Fin P => 0 <= P /\ w_A_ci r = Some (Some (Fin (196 / 100 * sqrt (C ^ 2 * (P * x) + S ^ 2 * (P * y))))) /\
        w_g_ci r = Some (Some (Fin (196 / 100 * (180 / PI) / A * sqrt (S ^ 2 * (P * x) + C ^ 2 * (P * y)))))
    | _ => level = NaN /\ w_A_ci r = Some (Some NaN) /\ w_g_ci r = Some (Some NaN)
    end) /\
    (q = 0 -> w_A_ci r = Some (Some NaN) /\ w_g_ci r = Some (Some NaN)).
Proof.
  intros AN IX IN CI WH PN HW xs Hx He Hi rs RS.
  destruct (wintervals_any _ _ _ _ _ _ _ _ _ AN IX IN CI PN HW) as (W1 & W2 & si & frq & p & Hs & PF & NB & H). apply range_nonneg in W1.
  assert (Hw : o_white (c_opt c) = false).
  { apply (set_white _ _ _ _ _ _ (an_keys _ _ _ _ _ _ _ _ AN) _ (an_solve _ _ _ _ _ _ _ _ AN) _ WH). exact falsy_false. }
  assert (N2 := params_2 _ _ PN).
  destruct (even_noise_w _ _ _ _ _ _ _ _ _ _ _ _ _ _ AN Hx He Hw Hi Hs N2 RS W2 NB) as (U & lu & pu & q0 & -> & R1 & LU & SP & FU & _).
  exists U, frq, lu. split; [exact R1|]. split; [exact PF|]. split; [exact SP|].
  intros r i A g f Hr Hl HA Hg NZ Hf oX oY q BX BY NV.
  destruct (H r i Hr Hl) as (Hj & k & oX' & oY' & qu & qv & X & Y & Xv & Yv & Hk & BX' & BY' & NU & _ & H').
  rewrite (wbest_unique _ _ _ _ _ _ _ W1 W2 BX' BX), (wbest_unique _ _ _ _ _ _ _ W1 W2 BY' BY), (measure_unique _ _ _ _ _ _ NU NV) in *.
  clear BX' BY' NU oX' oY' qu H.
  rewrite (set_twodim _ _ _ _ _ _ (an_keys _ _ _ _ _ _ _ _ AN) _ (an_solve _ _ _ _ _ _ _ _ AN)) in H'. cbn [is2d] in H'.
  cbv zeta in H'. destruct H' as (H1 & H2 & H3 & H4). cbv zeta.
  rewrite Hf in Hk. assert (NA := level_nth _ _ _ _ _ _ FU Hk).
  unfold n_uu in H3, H4. cbn [option_map fst] in H3, H4.
  destruct (even_length _ _ _ _ _ _ _ _ _ _ AN Hx He Hi Hs N2) as (_ & K & _). apply kept_len in K. rewrite map_length in K.
  assert (NT : (2 <= length (valid_times xs))%nat) by lia. assert (NS : (2 <= length U)%nat) by lia.
  assert (NN := noise_nonneg _ _ _ _ _ _ _ (effective_pos _ Hi NT) Hi NT NS SP NA).
  exists (nth_x pu k). split; [exact NA|].
  assert (SX := wbest_pos _ _ _ _ _ _ W1 W2 Hj BX). assert (SY := wbest_pos _ _ _ _ _ _ W1 W2 Hj BY).
  set (sx := weighted_squares w oX) in *. set (sy := weighted_squares w oY) in *. clearbody sx sy.
  split.
  2: { intros ->. rewrite !Rmult_0_r in H3, H4. destruct (linear1_zero X Y (nth_x pu k)) as [Z1 Z2]. rewrite Z1 in H3. rewrite Z2 in H4. auto. }
  intros Q.
  assert (NZ' : sx * q + sy * q <> 0) by (replace (sx * q + sy * q) with ((sx + sy) * q) by ring; apply Rmult_integral_contrapositive; split; lra).
  destruct NN as [(P & EP & P0)|EP]; rewrite EP in *.
  2: { split; [reflexivity|]. rewrite H3, H4. destruct (L_Noise2.linear1_nan X Y _ _ NZ') as [-> ->]. auto. }
  split; [exact P0|].
  rewrite coloured1 in H3, H4 by exact NZ'.
  rewrite share' in H3, H4 by assumption. replace (sx * q + sy * q) with (sy * q + sx * q) in H3, H4 by ring.
  rewrite share' in H3, H4 by assumption. replace (sy + sx) with (sx + sy) in H3, H4 by ring.
  rewrite H1 in HA. injection HA as EA. rewrite H2 in Hg. injection Hg as Eg.
  destruct (cs2cep1 X Y) as [[[A' mi] th] g'] eqn:E.
  assert (A' = A) by (rewrite <- EA; unfold A_of; now rewrite E). assert (g' = g) by (rewrite <- Eg; unfold g1_of; now rewrite E). subst A' g'.
  destruct (cep1_lemma _ _ _ _ _ _ E) as (A0 & _ & _ & _ & AS & M).
  assert (XE : A * cos (rad g) = X).
  { generalize (M 0). unfold component. rewrite cos_minus, cos_0, sin_0. intros; lra. }
  assert (YE : A * sin (rad g) = Y).
  { generalize (M (PI / 2)). unfold component. rewrite cos_minus, cos_PI2, sin_PI2. intros; lra. }
  assert (XY : X <> 0 \/ Y <> 0).
  { destruct (Req_dec X 0) as [ZX|]; [|auto]. destruct (Req_dec Y 0) as [ZY|]; [|auto]. exfalso. apply NZ.
    rewrite ZX, ZY in AS. destruct (Req_dec A 0) as [|J]; auto. apply (pow_nonzero _ 2) in J. lra. }
  assert (Sx : 0 <= sx / (sx + sy)) by (apply Rlt_le, Rdiv_lt_0_compat; lra).
  assert (Sy : 0 <= sy / (sx + sy)) by (apply Rlt_le, Rdiv_lt_0_compat; lra).
  destruct (linear1_closed X Y _ _ XY (Rmult_le_pos _ _ P0 Sx) (Rmult_le_pos _ _ P0 Sy)) as [V1 V2].
  rewrite H3, H4, V1, V2. rewrite A_of_sq in EA. rewrite EA. rewrite <- XE, <- YE.
  replace (A * cos (rad g) / A) with (cos (rad g)) by (field; exact NZ). replace (A * sin (rad g) / A) with (sin (rad g)) by (field; exact NZ).
  auto.
Qed.

Lemma wcoloured_vector L t u v lat opts sm c w : analysis L t u (Some v) lat opts sm c -> inv_exact L ->
  setting opts "infer" PNone -> setting opts "conf_int" (PStr "linear") -> setting opts "white" (PBool false) ->
  (params c < length sm)%nat -> c_weights c = map Fin w ->
  forall xs, normalize_time (l_parse L) (arr_data t) (o_epoch (c_opt c)) = Ok xs -> o_equi (c_opt c) = true -> increasing (valid_times xs) ->
  forall rs, residuals c sm rs ->
  exists series frqs levels,
    residual_series true (valid_times xs) (map fst sm) (map snd (weighted w rs)) (valid_times xs) series /\
    Permutation (map Some frqs) (map w_frq (rows c)) /\ noise_spectrum (valid_times xs) series frqs levels /\
    forall r i f P, In r (rows c) -> w_lind r = Some i -> w_frq r = Some f ->
    noise_at (effective_length (valid_times xs)) levels f (Fin P) ->
    forall oX oY qu qv, best_weighted c sm w i true oX -> best_weighted c sm w i false oY -> noise_measure fst c sm w qu -> noise_measure snd c sm w qv ->
    exists Xu Yu Xv Yv,
    w_Lsmaj r = Some (Some (maj_of Xu Yu Xv Yv)) /\ w_Lsmin r = Some (Some (min_of Xu Yu Xv Yv)) /\
    w_theta r = Some (Some (theta_of Xu Yu Xv Yv)) /\ w_g r = Some (g_of Xu Yu Xv Yv) /\
    let x := weighted_squares w oX in let y := weighted_squares w oY in
    (qv <> 0 -> 0 <= qu -> ~ circular Xu Yu Xv Yv -> 0 <= P /\ exists dmaj dmin dth dg,
      partials maj_of Xu Yu Xv Yv dmaj /\ partials min_of Xu Yu Xv Yv dmin /\
      turn_partials 180 theta_of Xu Yu Xv Yv dth /\ turn_partials 180 g_of Xu Yu Xv Yv dg /\
      let half_width := fun d => Fin (196 / 100 * propagated d (sqrt (qu * x)) (sqrt (qu * y)) (sqrt (P * (x / (x + y)))) (sqrt (P * (y / (x + y))))) in
      w_Lsmaj_ci r = Some (Some (half_width dmaj)) /\ w_g_ci r = Some (Some (half_width dg)) /\
      (Xv <> 0 -> w_Lsmin_ci r = Some (Some (half_width dmin)) /\ w_theta_ci r = Some (Some (half_width dth)))) /\
    (qv <> 0 -> qu < 0 -> w_Lsmaj_ci r = Some (Some NaN) /\ w_g_ci r = Some (Some NaN)).
Proof.
  intros AN IX IN CI WH PN HW xs Hx He Hi rs RS.
  destruct (wintervals_any _ _ _ _ _ _ _ _ _ AN IX IN CI PN HW) as (W1 & W2 & si & frq & p & Hs & PF & NB & H). apply range_nonneg in W1.
  assert (Hw : o_white (c_opt c) = false).
  { apply (set_white _ _ _ _ _ _ (an_keys _ _ _ _ _ _ _ _ AN) _ (an_solve _ _ _ _ _ _ _ _ AN) _ WH). exact falsy_false. }
  assert (N2 := params_2 _ _ PN).
  assert (TW := set_twodim _ _ _ _ _ _ (an_keys _ _ _ _ _ _ _ _ AN) _ (an_solve _ _ _ _ _ _ _ _ AN)). cbn [is2d] in TW.
  destruct (even_noise_w _ _ _ _ _ _ _ _ _ _ _ _ _ _ AN Hx He Hw Hi Hs N2 RS W2 NB) as (U & lu & pu & q0 & -> & _ & _ & _ & _ & HV).
  destruct (HV TW) as (V & lv & pv & puv & R1 & LV & SP & -> & FV).
  exists V, frq, lv. split; [exact R1|]. split; [exact PF|]. split; [exact SP|].
  intros r i f P Hr Hl Hf NA oX oY qu qv BX BY NU NV.
  destruct (H r i Hr Hl) as (Hj & k & oX' & oY' & qu' & qv' & Xu & Yu & Xv & Yv & Hk & BX' & BY' & NU' & NV' & H').
  rewrite (wbest_unique _ _ _ _ _ _ _ W1 W2 BX' BX), (wbest_unique _ _ _ _ _ _ _ W1 W2 BY' BY), (measure_unique _ _ _ _ _ _ NU' NU), (measure_unique _ _ _ _ _ _ NV' NV) in *.
  clear BX' BY' NU' NV' oX' oY' qu' qv' H. rewrite TW in H'. cbv zeta in H'. destruct H' as (H1 & H2 & H3 & H4 & H5 & H6 & H7 & H8). cbv zeta.
  exists Xu, Yu, Xv, Yv. do 4 (split; [assumption|]).
  rewrite Hf in Hk. assert (NA' := level_nth _ _ _ _ _ _ FV Hk). 
  assert (EP := noise_at_unique _ _ _ _ _ NA' NA).
  unfold n_vv in H5, H6, H7, H8. cbn [option_map fst snd] in H5, H6, H7, H8. rewrite EP in H5, H6, H7, H8.
  destruct (even_length _ _ _ _ _ _ _ _ _ _ AN Hx He Hi Hs N2) as (_ & K & _). apply kept_len in K. rewrite map_length in K.
  assert (NT : (2 <= length (valid_times xs))%nat) by lia. assert (NS : (2 <= length V)%nat) by lia.
  assert (P0 : 0 <= P).
  { destruct (noise_nonneg _ _ _ _ _ _ _ (effective_pos _ Hi NT) Hi NT NS SP NA) as [(P' & E & P0)|E]; [injection E as ->; exact P0|discriminate E]. }
  assert (SX := wbest_pos _ _ _ _ _ _ W1 W2 Hj BX). assert (SY := wbest_pos _ _ _ _ _ _ W1 W2 Hj BY).
  set (sx := weighted_squares w oX) in *. set (sy := weighted_squares w oY) in *. clearbody sx sy.
  assert (CV : qv <> 0 -> linear2 Xu Yu Xv Yv (Fin (sx * qu)) (Fin (sy * qu)) (Fin (sx * qv)) (Fin (sy * qv)) (Some (Fin P)) =
    linear2 Xu Yu Xv Yv (Fin (sx * qu)) (Fin (sy * qu)) (Fin (P * (sx / (sx + sy)))) (Fin (P * (sy / (sx + sy)))) None).
  { intros Q. rewrite coloured2 by (replace (sx * qv + sy * qv) with ((sx + sy) * qv) by ring; apply Rmult_integral_contrapositive; split; lra).
    rewrite share' by assumption. replace (sx * qv + sy * qv) with (sy * qv + sx * qv) by ring. rewrite share' by assumption. replace (sy + sx) with (sx + sy) by ring. reflexivity. }
  split.
  - intros Q Q0 NC. split; [exact P0|]. rewrite (CV Q) in H5, H6, H7, H8.
    assert (Sx : 0 <= sx / (sx + sy)) by (apply Rlt_le, Rdiv_lt_0_compat; lra).
    assert (Sy : 0 <= sy / (sx + sy)) by (apply Rlt_le, Rdiv_lt_0_compat; lra).
    destruct (linear2_widths _ _ _ _ (sx * qu) (sy * qu) _ _ NC ltac:(apply Rmult_le_pos; lra) ltac:(apply Rmult_le_pos; lra) (Rmult_le_pos _ _ P0 Sx) (Rmult_le_pos _ _ P0 Sy)) as
      (dmaj & dmin & dth & dg & P1 & P2 & P3 & P4 & E).
    exists dmaj, dmin, dth, dg. repeat (split; [assumption|]). cbv zeta in E. destruct E as (E1 & E2 & E3 & E4).
    rewrite H5, H6, H7, H8, E1, E2, E3, E4. rewrite (Rmult_comm sx qu), (Rmult_comm sy qu). split; [reflexivity|]. split; [reflexivity|].
    intros N. destruct (Req_EM_T _ 0); [contradiction|auto].
  - intros Q Q0. rewrite (CV Q) in H5, H8.
    destruct (L_RobErr3.linear2_nan Xu Yu Xv Yv (sx * qu) (sy * qu) (P * (sx / (sx + sy))) (P * (sy / (sx + sy))) ltac:(left; nra)) as [Z1 Z2].
    now rewrite H5, H8, Z1, Z2.
Qed.
