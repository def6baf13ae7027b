(** Confidence intervals of a whole analysis with coloured noise, evenly spaced record. *)
From Coq Require Import Lia Lra Permutation.
From Coquelicot Require Import Coquelicot.
From Verif Require Import M_Base M_Lib M_Options M_Time M_Slvinit M_Ellipse M_Period M_Conf M_Diag M_Solve M_Recon S_Dict S_Options S_Order S_Basis S_Fit S_Ellipse S_Slv S_Recon S_Model S_Conf S_Errors S_Period S_Noise
  L_Base L_Options L_SolveInv L_OptSolve L_Slv L_Slv2 L_Select L_Fit L_Lsq L_Angle L_Ellipse L_Ellipse2 L_Core L_Model L_Model2 L_Model3 L_Model7 L_Model9 L_Model11 L_Conf L_Conf2 L_Conf3 L_Conf4 L_Period L_Period2 L_Period3 L_Period9 L_Errors5 L_Errors6 L_Noise L_Noise2.
Open Scope R_scope.
Open Scope string_scope.

Lemma row_lind c r i : In r (rows c) -> w_lind r = Some i -> In i (c_lind c).
Proof. unfold rows. intros H E. apply in_map_iff in H. destruct H as (k & <- & _). cbn [crow_of w_lind] in E. eapply nth_error_In; eauto. Qed.
Lemma falsy_false : falsy (PBool false). Proof. unfold falsy. auto. Qed.
Lemma level_nth T l frq pu k f : Forall2 (noise_at T l) frq pu -> nth_error frq k = Some f -> noise_at T l f (nth_x pu k).
Proof.
  intros H. revert k. induction H as [|a b fs ps Hab H IH]; intros [|k] E; try discriminate.
  - injection E as <-. exact Hab.
  - apply IH. exact E.
Qed.
Lemma params_2 c n : (params c < n)%nat -> (2 <= n)%nat.
Proof. unfold params. lia. Qed.

(** share of the noise level that goes to a coefficient *)
Lemma share P a b q : 0 < q -> 0 < a -> 0 < b -> P * (a * q) / (a * q + b * q) = P * (a / (a + b)).
Proof. intros. field. split; nra. Qed.

Lemma coloured_scalar L t u lat opts sm c : analysis L t u None lat opts sm c -> lstsq_minimises L -> inv_exact L ->
  setting opts "method" (PStr "ols") -> setting opts "infer" PNone -> setting opts "conf_int" (PStr "linear") -> setting opts "white" (PBool false) ->
  (params c < length sm)%nat ->
  forall xs, normalize_time (l_parse L) (arr_data t) (o_epoch (c_opt c)) = Ok xs -> o_equi (c_opt c) = true -> increasing (valid_times xs) ->
  forall rs, residuals c sm rs ->
  exists series frqs levels,
    residual_series true (valid_times xs) (map fst sm) (map fst rs) (valid_times xs) series /\
    Permutation (map Some frqs) (map w_frq (rows c)) /\ noise_spectrum (valid_times xs) series frqs levels /\
    forall r i A g f, In r (rows c) -> w_lind r = Some i -> w_A r = Some (Some A) -> w_g r = Some g -> A <> 0 -> w_frq r = Some f ->
    forall wX wY q, best_unbiased c sm i true wX -> best_unbiased c sm i false wY -> noise_variance fst c sm q -> 0 < q ->
    let C := cos (rad g) in let S := sin (rad g) in
    let x := squares wX / (squares wX + squares wY) in let y := squares wY / (squares wX + squares wY) in
    exists level, noise_at (effective_length (valid_times xs)) levels f level /\
    match level with
    | Fin P => 0 <= P /\ w_A_ci r = Some (Some (Fin (196 / 100 * sqrt (C ^ 2 * (P * x) + S ^ 2 * (P * y))))) /\
        w_g_ci r = Some (Some (Fin (196 / 100 * (180 / PI) / A * sqrt (S ^ 2 * (P * x) + C ^ 2 * (P * y)))))
    | _ => level = NaN /\ w_A_ci r = Some (Some NaN) /\ w_g_ci r = Some (Some NaN)
    end.
Proof.
  intros AN LM IX ME IN CI WH PN xs Hx He Hi rs RS.
  destruct (run_intervals_any _ _ _ _ _ _ _ _ AN LM IX ME IN CI PN) as (si & frq & p & Hs & PF & NB & H).
  assert (Hw : o_white (c_opt c) = false).
  { apply (set_white _ _ _ _ _ _ (an_keys _ _ _ _ _ _ _ _ AN) _ (an_solve _ _ _ _ _ _ _ _ AN) _ WH). exact falsy_false. }
  assert (N2 := params_2 _ _ PN).
  destruct (even_noise _ _ _ _ _ _ _ _ _ _ _ _ _ AN Hx He Hw Hi Hs N2 RS NB) as (U & lu & pu & q0 & -> & R1 & LU & SP & FU & _).
  exists U, frq, lu. split; [exact R1|]. split; [exact PF|]. split; [exact SP|].
  intros r i A g f Hr Hl HA Hg NZ Hf wX wY q BX BY NV Q.
  destruct (H r i Hr Hl) as (k & wX' & wY' & qu & qv & Hk & BX' & BY' & NU & _ & _ & _ & H').
  rewrite (best_unique _ _ _ _ _ _ BX' BX), (best_unique _ _ _ _ _ _ BY' BY), (noise_unique _ _ _ _ _ NU NV) in *.
  clear BX' BY' NU wX' wY' qu H.
  rewrite (set_twodim _ _ _ _ _ _ (an_keys _ _ _ _ _ _ _ _ AN) _ (an_solve _ _ _ _ _ _ _ _ AN)) in H'. cbn [is2d] in H'.
  cbv zeta in H'. destruct H' as (H1 & H2 & H3 & H4). cbv zeta.
  rewrite Hf in Hk. assert (NA := level_nth _ _ _ _ _ _ FU Hk).
  unfold n_uu in H3, H4. cbn [option_map fst] in H3, H4.
  destruct (even_length _ _ _ _ _ _ _ _ _ _ AN Hx He Hi Hs N2) as (_ & K & _). apply kept_len in K. rewrite map_length in K.
  assert (NT : (2 <= length (valid_times xs))%nat) by lia. assert (NS : (2 <= length U)%nat) by lia.
  assert (NN := noise_nonneg _ _ _ _ _ _ _ (effective_pos _ Hi NT) Hi NT NS SP NA).
  exists (nth_x pu k). split; [exact NA|].
  assert (Hj := row_lind _ _ _ Hr Hl). assert (SX := unbiased_squares _ _ _ _ _ Hj (proj1 BX)). assert (SY := unbiased_squares _ _ _ _ _ Hj (proj1 BY)).
  assert (NZ' : squares wX * q + squares wY * q <> 0) by (apply Rgt_not_eq, Rplus_lt_0_compat; apply Rmult_lt_0_compat; assumption).
  set (X := estimate fst wX sm) in *. set (Y := estimate fst wY sm) in *.
  destruct NN as [(P & EP & P0)|EP]; rewrite EP in *.
  2: { split; [reflexivity|]. rewrite H3, H4. destruct (linear1_nan X Y _ _ NZ') as [-> ->]. auto. }
  split; [exact P0|].
  rewrite coloured1 in H3, H4 by exact NZ'.
  rewrite share in H3, H4 by assumption. replace (squares wX * q + squares wY * q) with (squares wY * q + squares wX * q) in H3, H4 by ring.
  rewrite share in H3, H4 by assumption. replace (squares wY + squares wX) with (squares wX + squares wY) in H3, H4 by ring.
  rewrite H1 in HA. injection HA as EA. rewrite H2 in Hg. injection Hg as Eg.
  destruct (cs2cep1 X Y) as [[[A' mi] th] g'] eqn:E.
  assert (A' = A) by (rewrite <- EA; unfold A_of; now rewrite E). assert (g' = g) by (rewrite <- Eg; unfold g1_of; now rewrite E). subst A' g'.
  destruct (cep1_lemma _ _ _ _ _ _ E) as (A0 & _ & _ & _ & AS & M).
  assert (XE : A * cos (rad g) = X).
  { generalize (M 0). unfold component. rewrite cos_minus, cos_0, sin_0. intros; lra. }
  assert (YE : A * sin (rad g) = Y).
  { generalize (M (PI / 2)). unfold component. rewrite cos_minus, cos_PI2, sin_PI2. intros; lra. }
  assert (XY : X <> 0 \/ Y <> 0).
  { destruct (Req_dec X 0) as [ZX|]; [|auto]. destruct (Req_dec Y 0) as [ZY|]; [|auto]. exfalso. apply NZ.
    rewrite ZX, ZY in AS. destruct (Req_dec A 0) as [|J]; auto. apply (pow_nonzero _ 2) in J. lra. }
  assert (Sx : 0 <= squares wX / (squares wX + squares wY)) by (apply Rlt_le, Rdiv_lt_0_compat; lra).
  assert (Sy : 0 <= squares wY / (squares wX + squares wY)) by (apply Rlt_le, Rdiv_lt_0_compat; lra).
  destruct (linear1_closed X Y _ _ XY (Rmult_le_pos _ _ P0 Sx) (Rmult_le_pos _ _ P0 Sy)) as [W1 W2].
  rewrite H3, H4, W1, W2. rewrite A_of_sq in EA. rewrite EA. rewrite <- XE, <- YE.
  replace (A * cos (rad g) / A) with (cos (rad g)) by (field; exact NZ). replace (A * sin (rad g) / A) with (sin (rad g)) by (field; exact NZ).
  auto.
Qed.

Lemma coloured_vector L t u v lat opts sm c : analysis L t u (Some v) lat opts sm c -> lstsq_minimises L -> inv_exact L ->
  setting opts "method" (PStr "ols") -> setting opts "infer" PNone -> setting opts "conf_int" (PStr "linear") -> setting opts "white" (PBool false) ->
  (params c < length sm)%nat ->
  forall xs, normalize_time (l_parse L) (arr_data t) (o_epoch (c_opt c)) = Ok xs -> o_equi (c_opt c) = true -> increasing (valid_times xs) ->
  forall rs, residuals c sm rs ->
  exists series frqs levels,
    residual_series true (valid_times xs) (map fst sm) (map snd rs) (valid_times xs) series /\
    Permutation (map Some frqs) (map w_frq (rows c)) /\ noise_spectrum (valid_times xs) series frqs levels /\
    forall r i f P, In r (rows c) -> w_lind r = Some i -> w_frq r = Some f ->
    noise_at (effective_length (valid_times xs)) levels f (Fin P) ->
    forall wX wY qu qv, best_unbiased c sm i true wX -> best_unbiased c sm i false wY -> noise_variance fst c sm qu -> noise_variance snd c sm qv -> 0 < qv ->
    let Xu := estimate fst wX sm in let Yu := estimate fst wY sm in let Xv := estimate snd wX sm in let Yv := estimate snd wY sm in
    let x := squares wX / (squares wX + squares wY) in let y := squares wY / (squares wX + squares wY) in
    ~ circular Xu Yu Xv Yv -> 0 <= P /\ exists dmaj dmin dth dg,
      partials maj_of Xu Yu Xv Yv dmaj /\ partials min_of Xu Yu Xv Yv dmin /\
      turn_partials 180 theta_of Xu Yu Xv Yv dth /\ turn_partials 180 g_of Xu Yu Xv Yv dg /\
      let half_width := fun d => Fin (196 / 100 * propagated d (sqrt (qu * squares wX)) (sqrt (qu * squares wY)) (sqrt (P * x)) (sqrt (P * y))) in
      w_Lsmaj_ci r = Some (Some (half_width dmaj)) /\ w_g_ci r = Some (Some (half_width dg)) /\
      (Xv <> 0 -> w_Lsmin_ci r = Some (Some (half_width dmin)) /\ w_theta_ci r = Some (Some (half_width dth))).
Proof.
  intros AN LM IX ME IN CI WH PN xs Hx He Hi rs RS.
  destruct (run_intervals_any _ _ _ _ _ _ _ _ AN LM IX ME IN CI PN) as (si & frq & p & Hs & PF & NB & H).
  assert (Hw : o_white (c_opt c) = false).
  { apply (set_white _ _ _ _ _ _ (an_keys _ _ _ _ _ _ _ _ AN) _ (an_solve _ _ _ _ _ _ _ _ AN) _ WH). exact falsy_false. }
  assert (N2 := params_2 _ _ PN).
  assert (TW := set_twodim _ _ _ _ _ _ (an_keys _ _ _ _ _ _ _ _ AN) _ (an_solve _ _ _ _ _ _ _ _ AN)). cbn [is2d] in TW.
  destruct (even_noise _ _ _ _ _ _ _ _ _ _ _ _ _ AN Hx He Hw Hi Hs N2 RS NB) as (U & lu & pu & q0 & -> & _ & _ & _ & _ & HV).
  destruct (HV TW) as (V & lv & pv & puv & R1 & LV & SP & -> & FV & _).
  exists V, frq, lv. split; [exact R1|]. split; [exact PF|]. split; [exact SP|].
  intros r i f P Hr Hl Hf NA wX wY qu qv BX BY NU NV Q.
  destruct (H r i Hr Hl) as (k & wX' & wY' & qu' & qv' & Hk & BX' & BY' & NU' & NV' & Q0 & _ & H').
  rewrite (best_unique _ _ _ _ _ _ BX' BX), (best_unique _ _ _ _ _ _ BY' BY), (noise_unique _ _ _ _ _ NU' NU), (noise_unique _ _ _ _ _ NV' NV) in *.
  clear BX' BY' NU' NV' wX' wY' qu' qv' H. rewrite TW in H'. cbv zeta in H'. destruct H' as (H1 & H2 & H3 & H4 & H5 & H6 & H7 & H8). cbv zeta.
  intros NC. rewrite Hf in Hk. assert (NA' := level_nth _ _ _ _ _ _ FV Hk). 
  assert (EP := noise_at_unique _ _ _ _ _ NA' NA).
  unfold n_vv in H5, H6, H7, H8. cbn [option_map fst snd] in H5, H6, H7, H8. rewrite EP in H5, H6, H7, H8.
  destruct (even_length _ _ _ _ _ _ _ _ _ _ AN Hx He Hi Hs N2) as (_ & K & _). apply kept_len in K. rewrite map_length in K.
  assert (NT : (2 <= length (valid_times xs))%nat) by lia. assert (NS : (2 <= length V)%nat) by lia.
  assert (P0 : 0 <= P).
  { destruct (noise_nonneg _ _ _ _ _ _ _ (effective_pos _ Hi NT) Hi NT NS SP NA) as [(P' & E & P0)|E]; [injection E as ->; exact P0|discriminate E]. }
  split; [exact P0|].
  assert (Hj := row_lind _ _ _ Hr Hl). assert (SX := unbiased_squares _ _ _ _ _ Hj (proj1 BX)). assert (SY := unbiased_squares _ _ _ _ _ Hj (proj1 BY)).
  assert (NZ' : squares wX * qv + squares wY * qv <> 0) by (apply Rgt_not_eq, Rplus_lt_0_compat; apply Rmult_lt_0_compat; assumption).
  rewrite coloured2 in H5, H6, H7, H8 by exact NZ'.
  rewrite share in H5, H6, H7, H8 by assumption. replace (squares wX * qv + squares wY * qv) with (squares wY * qv + squares wX * qv) in H5, H6, H7, H8 by ring.
  rewrite share in H5, H6, H7, H8 by assumption. replace (squares wY + squares wX) with (squares wX + squares wY) in H5, H6, H7, H8 by ring.
  assert (Sx : 0 <= squares wX / (squares wX + squares wY)) by (apply Rlt_le, Rdiv_lt_0_compat; lra).
  assert (Sy : 0 <= squares wY / (squares wX + squares wY)) by (apply Rlt_le, Rdiv_lt_0_compat; lra).
  destruct (linear2_widths _ _ _ _ (squares wX * qu) (squares wY * qu) _ _ NC ltac:(apply Rmult_le_pos; lra) ltac:(apply Rmult_le_pos; lra) (Rmult_le_pos _ _ P0 Sx) (Rmult_le_pos _ _ P0 Sy)) as
      (dmaj & dmin & dth & dg & P1 & P2 & P3 & P4 & E).
  exists dmaj, dmin, dth, dg. repeat (split; [assumption|]). cbv zeta in E. destruct E as (E1 & E2 & E3 & E4).
  rewrite H5, H6, H7, H8, E1, E2, E3, E4. rewrite !(Rmult_comm (squares _) qu). split; [reflexivity|]. split; [reflexivity|].
  intros N. destruct (Req_EM_T _ 0); [contradiction|auto].
Qed.
