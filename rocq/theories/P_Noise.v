(** Properties C79, C80: noise levels of constituents and intervals for coloured noise. *)
From Coq Require Import Lia Lra Permutation.
From Coquelicot Require Import Coquelicot.
From Verif Require Import M_Base M_Lib M_Options M_Time M_Slvinit M_Select M_Ellipse M_Period M_Conf M_Solve M_Diag M_Recon
  S_Order S_Ellipse S_Dict S_Options S_Slv S_Fit S_Recon S_Model S_Conf S_Errors S_Period S_Noise L_Ellipse2 L_Angle L_Example L_Example3 L_Example5 L_Example7 L_Example8
  L_Noise L_Noise3 L_Noise4.
Open Scope R_scope.
Open Scope string_scope.

(** C79.  The noise level attributed to each constituent is the level of the band that contains its frequency, in the
    spectrum of the residuals (filled in linearly at the missing times of an evenly spaced record), per frequency step
    of the record; zero for frequencies outside the nine bands. *)
Theorem C79_noise_levels : forall L tin t eu ev T frq equi tw pu q, 0 < T -> increasing t -> length eu = length t -> (forall v, ev = Some v -> length v = length t) ->
  (tw = true -> ev <> None) ->
  band_averaged_psd_by_constit L tin t eu ev (Fin T) frq equi tw = Ok (pu, q) ->
  exists times u v p, residual_series equi tin t eu times u /\
    match ev, v with Some e, Some w => residual_series equi tin t e times w | None, None => True | _, _ => False end /\
    band_psd L times u v frq equi = Ok p /\
    Forall2 (noise_at T (b_Puu p)) frq pu /\
    if tw then exists lv luv pv puv, b_Pvv p = Some lv /\ b_Puv p = Some luv /\ q = Some (pv, puv) /\ Forall2 (noise_at T lv) frq pv /\ Forall2 (noise_at T luv) frq puv
    else q = None.
Proof. exact noise_levels. Qed.
Print Assumptions C79_noise_levels.

(** five days, the fourth missing: the hypotheses are met, and the missing value is read half-way between its neighbours *)
Example C79_example : exists L p, increasing [0; 1; 2; 4] /\
  band_averaged_psd_by_constit L [0; 1; 2; 3; 4] [0; 1; 2; 4] [1; 2; 3; 5] None (Fin 5) [0.0805] true false = Ok p /\
  read_at [0; 1; 2; 4] [1; 2; 3; 5] 3 4.
Proof.
  exists no_lib. destruct (gap_psd no_lib [1; 2; 3; 5] None (Fin 5) [0.0805] false eq_refl) as [p E]; [discriminate|].
  exists p. split; [exact gap_incr|]. split; [exact E|]. split; [cbn; intros; lra|]. split; [cbn; intros; lra|].
  intros [|[|[|k]]] H K; cbn in *; try lra; lia.
Qed.
(** four hourly values: the level of a semidiurnal frequency is a number *)
Example C79_example_level : exists levels P, noise_spectrum [0; 1 / 24; 2 / 24; 3 / 24] [1; 0; 2; 5] [0.0805] levels /\ noise_at 1 levels 0.0805 (Fin P).
Proof. exact (hourly_level [1; 0; 2; 5] eq_refl). Qed.

(** C80.  Ordinary least squares without inference, linearised intervals for coloured noise, evenly spaced record
    (possibly with gaps), more samples than parameters.  Scalar data: the noise level at the constituent's frequency -
    from the residuals data minus reconstruction, leaving out the bins of the constituents themselves, for the
    effective record length - is shared between cosine and sine coefficient in the ratio of their variances, and the
    half-widths are 1.96 propagated standard errors; NaN where no spectral estimate falls into the band. *)
Theorem C80_scalar : forall L t u lat opts sm c, analysis L t u None lat opts sm c -> lstsq_minimises L -> inv_exact L ->
  setting opts "method" (PStr "ols") -> setting opts "infer" PNone -> setting opts "conf_int" (PStr "linear") -> setting opts "white" (PBool false) ->
  (params c < length sm)%nat ->
  forall xs, normalize_time (l_parse L) (arr_data t) (o_epoch (c_opt c)) = Ok xs -> o_equi (c_opt c) = true -> increasing (valid_times xs) ->
  forall rs, residuals c sm rs ->
  exists series frqs levels,
    residual_series true (valid_times xs) (map fst sm) (map fst rs) (valid_times xs) series /\
    Permutation (map Some frqs) (map w_frq (rows c)) /\ noise_spectrum (valid_times xs) series frqs levels /\
    forall r i A g f, In r (rows c) -> w_lind r = Some i -> w_A r = Some (Some A) -> w_g r = Some g -> A <> 0 -> w_frq r = Some f ->
    forall wX wY q, best_unbiased c sm i true wX -> best_unbiased c sm i false wY -> noise_variance fst c sm q -> 0 < q ->
    let C := cos (rad g) in let S := sin (rad g) in
    let x := squares wX / (squares wX + squares wY) in let y := squares wY / (squares wX + squares wY) in
    exists level, noise_at (effective_length (valid_times xs)) levels f level /\
    match level with
    | Fin P => 0 <= P /\ w_A_ci r = Some (Some (Fin (196 / 100 * sqrt (C ^ 2 * (P * x) + S ^ 2 * (P * y))))) /\
        w_g_ci r = Some (Some (Fin (196 / 100 * (180 / PI) / A * sqrt (S ^ 2 * (P * x) + C ^ 2 * (P * y)))))
    | _ => level = NaN /\ w_A_ci r = Some (Some NaN) /\ w_g_ci r = Some (Some NaN)
    end.
Proof. exact coloured_scalar. Qed.
Print Assumptions C80_scalar.

(** Vector data: the coefficients of v share the noise level of v; those of u keep the white-noise variances. *)
Theorem C80_vector : forall L t u v lat opts sm c, analysis L t u (Some v) lat opts sm c -> lstsq_minimises L -> inv_exact L ->
  setting opts "method" (PStr "ols") -> setting opts "infer" PNone -> setting opts "conf_int" (PStr "linear") -> setting opts "white" (PBool false) ->
  (params c < length sm)%nat ->
  forall xs, normalize_time (l_parse L) (arr_data t) (o_epoch (c_opt c)) = Ok xs -> o_equi (c_opt c) = true -> increasing (valid_times xs) ->
  forall rs, residuals c sm rs ->
  exists series frqs levels,
    residual_series true (valid_times xs) (map fst sm) (map snd rs) (valid_times xs) series /\
    Permutation (map Some frqs) (map w_frq (rows c)) /\ noise_spectrum (valid_times xs) series frqs levels /\
    forall r i f P, In r (rows c) -> w_lind r = Some i -> w_frq r = Some f ->
    noise_at (effective_length (valid_times xs)) levels f (Fin P) ->
    forall wX wY qu qv, best_unbiased c sm i true wX -> best_unbiased c sm i false wY -> noise_variance fst c sm qu -> noise_variance snd c sm qv -> 0 < qv ->
    let Xu := estimate fst wX sm in let Yu := estimate fst wY sm in let Xv := estimate snd wX sm in let Yv := estimate snd wY sm in
    let x := squares wX / (squares wX + squares wY) in let y := squares wY / (squares wX + squares wY) in
    ~ circular Xu Yu Xv Yv -> 0 <= P /\ exists dmaj dmin dth dg,
      partials maj_of Xu Yu Xv Yv dmaj /\ partials min_of Xu Yu Xv Yv dmin /\
      turn_partials 180 theta_of Xu Yu Xv Yv dth /\ turn_partials 180 g_of Xu Yu Xv Yv dg /\
      let half_width := fun d => Fin (196 / 100 * propagated d (sqrt (qu * squares wX)) (sqrt (qu * squares wY)) (sqrt (P * x)) (sqrt (P * y))) in
      w_Lsmaj_ci r = Some (Some (half_width dmaj)) /\ w_g_ci r = Some (Some (half_width dg)) /\
      (Xv <> 0 -> w_Lsmin_ci r = Some (Some (half_width dmin)) /\ w_theta_ci r = Some (Some (half_width dth))).
Proof. exact coloured_vector. Qed.
Print Assumptions C80_vector.

(** five days, one value missing, M2 and a mean, noise that no M2 tide can follow *)
Example C80_example_scalar : exists L t u lat opts sm c xs rs r A g, analysis L t u None lat opts sm c /\ lstsq_minimises L /\ inv_exact L /\
  setting opts "method" (PStr "ols") /\ setting opts "infer" PNone /\ setting opts "conf_int" (PStr "linear") /\ setting opts "white" (PBool false) /\
  (params c < length sm)%nat /\ normalize_time (l_parse L) (arr_data t) (o_epoch (c_opt c)) = Ok xs /\ o_equi (c_opt c) = true /\ increasing (valid_times xs) /\
  residuals c sm rs /\ (exists q, noise_variance fst c sm q /\ 0 < q) /\
  In r (rows c) /\ w_lind r = Some 47%nat /\ w_A r = Some (Some A) /\ w_g r = Some g /\ A <> 0.
Proof.
  destruct (g_run false (RtoC 1) (1, 2) (Cconj (1, 2)) (RtoC 3)) as (c & AN & E1 & E2 & E3 & E4 & E5 & RS & r & R1 & R2 & R3 & R4 & R5).
  { intros _. cbn. auto. }
  do 7 eexists. exists (map Fin five). eexists. exists r. do 2 eexists. split; [exact AN|].
  split; [apply noisy_minimises; [apply noise_0|apply noise_x|apply noise_y]|]. split; [apply noisy_inv|].
  repeat (split; [first [left; cbn; tauto | right; split; [cbn; intros K; repeat (destruct K as [K|K]; [discriminate|]); exact K|cbn; tauto]]|]).
  split; [unfold params; rewrite E5, E3; cbn; lia|]. split; [rewrite E4; reflexivity|]. split; [exact E2|]. split; [exact five_incr|]. split; [exact RS|].
  split.
  { eexists. split; [eexists; split; [exact RS|reflexivity]|]. apply Rdiv_lt_0_compat.
    - cbn [map]. unfold rsum. cbn [fold_right]. assert (N := noise_n1). unfold Cmult, RtoC. cbn [fst snd]. generalize (pow2_ge_0 (n4 0)), (pow2_ge_0 (n4 2)), (pow2_ge_0 (n4 3)).
      assert (0 < n4 1 ^ 2) by (apply pow2_gt_0; exact N). intros. rewrite !Rmult_1_r, !Rmult_0_r, !Rminus_0_r. lra.
    - unfold params. rewrite E5, E3. cbn. lra. }
  split; [exact R1|]. split; [exact R2|]. split; [apply R5; reflexivity|]. split; [exact R4|].
  unfold ellipse_of, cs2cep1, e_maj, Xu_of, Yu_of, Cmod. cbn. apply Rgt_not_eq, sqrt_lt_R0. lra.
Qed.
Example C80_example_vector : exists L t u v lat opts sm c xs rs r, analysis L t u (Some v) lat opts sm c /\ lstsq_minimises L /\ inv_exact L /\
  setting opts "method" (PStr "ols") /\ setting opts "infer" PNone /\ setting opts "conf_int" (PStr "linear") /\ setting opts "white" (PBool false) /\
  (params c < length sm)%nat /\ normalize_time (l_parse L) (arr_data t) (o_epoch (c_opt c)) = Ok xs /\ o_equi (c_opt c) = true /\ increasing (valid_times xs) /\
  residuals c sm rs /\ (exists q, noise_variance snd c sm q /\ 0 < q) /\ In r (rows c) /\ w_lind r = Some 47%nat.
Proof.
  destruct (g_run true (1, 2) (2, 1) (1, 0) (5, 6)) as (c & AN & E1 & E2 & E3 & E4 & E5 & RS & r & R1 & R2 & R3 & R4 & R5).
  { discriminate. }
  do 8 eexists. exists (map Fin five). eexists. exists r. split; [exact AN|].
  split; [apply noisy_minimises; [apply noise_0|apply noise_x|apply noise_y]|]. split; [apply noisy_inv|].
  repeat (split; [first [left; cbn; tauto | right; split; [cbn; intros K; repeat (destruct K as [K|K]; [discriminate|]); exact K|cbn; tauto]]|]).
  split; [unfold params; rewrite E5, E3; cbn; lia|]. split; [rewrite E4; reflexivity|]. split; [exact E2|]. split; [exact five_incr|]. split; [exact RS|].
  split; [|auto].
  eexists. split; [eexists; split; [exact RS|reflexivity]|]. apply Rdiv_lt_0_compat.
  - cbn [map]. unfold rsum. cbn [fold_right]. assert (N := noise_n1). unfold Cmult, RtoC. cbn [fst snd]. generalize (pow2_ge_0 (n4 0)), (pow2_ge_0 (n4 2)), (pow2_ge_0 (n4 3)).
    assert (0 < n4 1 ^ 2) by (apply pow2_gt_0; exact N). intros. rewrite !Rmult_0_l, !Rplus_0_r, !Rpow_mult_distr. lra.
  - unfold params. rewrite E5, E3. cbn. lra.
Qed.
