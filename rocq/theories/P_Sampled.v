(** Properties C81, C82: Monte-Carlo intervals of a whole analysis. *)
From Coq Require Import Lia Lra Permutation.
From Coquelicot Require Import Coquelicot.
From Verif Require Import M_Base M_Lib M_Options M_Time M_Slvinit M_Select M_Ellipse M_Period M_Conf M_Solve M_Diag M_Recon
  S_Order S_Ellipse S_Dict S_Options S_Slv S_Fit S_Recon S_Model S_Conf S_Errors S_Period S_Noise S_Sampled L_Angle L_Example L_Example3 L_Example5 L_Example7
  L_Noise4 L_Sampled L_Sampled2 L_Example9 L_Example10.
Open Scope R_scope.
Open Scope string_scope.

(** C81.  Ordinary least squares without inference, Monte-Carlo intervals for white noise, more samples than
    parameters.  The weights of the best unbiased estimates and the noise variances and covariance exist and are unique. *)
Theorem C81_exists : forall L t u v lat opts sm c, analysis L t u v lat opts sm c -> lstsq_minimises L -> inv_exact L ->
  setting opts "method" (PStr "ols") -> setting opts "infer" PNone -> setting opts "conf_int" (PStr "MC") ->
  (params c < length sm)%nat ->
  forall r i, In r (rows c) -> w_lind r = Some i ->
  (exists! wX, best_unbiased c sm i true wX) /\ (exists! wY, best_unbiased c sm i false wY) /\
  (exists! qu, noise_variance fst c sm qu) /\ (exists! qv, noise_variance snd c sm qv) /\ (exists! quv, noise_covariance c sm quv).
Proof. exact sampled_exist. Qed.
Print Assumptions C81_exists.

(** Scalar data: 200 draws around the best unbiased estimates with their covariance. *)
Theorem C81_scalar : forall L t u lat opts sm c, analysis L t u None lat opts sm c -> lstsq_minimises L -> inv_exact L -> mvn_shape L ->
  setting opts "method" (PStr "ols") -> setting opts "infer" PNone -> setting opts "conf_int" (PStr "MC") -> setting opts "white" (PBool true) ->
  (params c < length sm)%nat ->
  forall r i wX wY q, In r (rows c) -> w_lind r = Some i ->
  best_unbiased c sm i true wX -> best_unbiased c sm i false wY -> noise_variance fst c sm q ->
  let X := estimate fst wX sm in let Y := estimate fst wY sm in
  let cov := [[q * squares wX; q * products wX wY]; [q * products wX wY; q * squares wY]] in
  w_A r = Some (Some (A_of X Y)) /\ w_g r = Some (g1_of X Y) /\
  exists a b, scalar_draws L X Y cov 200 (g1_of X Y) a b /\ w_A_ci r = Some (Some a) /\ w_g_ci r = Some (Some b).
Proof. exact sampled_scalar. Qed.
Print Assumptions C81_scalar.

(** Vector data: 200 draws of the four coefficients; the noise of u and v may be correlated. *)
Theorem C81_vector : forall L t u v lat opts sm c, analysis L t u (Some v) lat opts sm c -> lstsq_minimises L -> inv_exact L -> mvn_shape L ->
  setting opts "method" (PStr "ols") -> setting opts "infer" PNone -> setting opts "conf_int" (PStr "MC") -> setting opts "white" (PBool true) ->
  (params c < length sm)%nat ->
  forall r i wX wY qu qv quv, In r (rows c) -> w_lind r = Some i ->
  best_unbiased c sm i true wX -> best_unbiased c sm i false wY ->
  noise_variance fst c sm qu -> noise_variance snd c sm qv -> noise_covariance c sm quv ->
  let Xu := estimate fst wX sm in let Yu := estimate fst wY sm in let Xv := estimate snd wX sm in let Yv := estimate snd wY sm in
  let xx := squares wX in let yy := squares wY in let xy := products wX wY in
  let cov := [[qu * xx; qu * xy; quv * xx; quv * xy]; [qu * xy; qu * yy; quv * xy; quv * yy];
              [quv * xx; quv * xy; qv * xx; qv * xy]; [quv * xy; quv * yy; qv * xy; qv * yy]] in
  w_Lsmaj r = Some (Some (maj_of Xu Yu Xv Yv)) /\ w_Lsmin r = Some (Some (min_of Xu Yu Xv Yv)) /\
  w_theta r = Some (Some (theta_of Xu Yu Xv Yv)) /\ w_g r = Some (g_of Xu Yu Xv Yv) /\
  exists a b d e, vector_draws L Xu Yu Xv Yv cov 200 (theta_of Xu Yu Xv Yv) (g_of Xu Yu Xv Yv) a b d e /\
    w_Lsmaj_ci r = Some (Some a) /\ w_Lsmin_ci r = Some (Some b) /\ w_theta_ci r = Some (Some d) /\ w_g_ci r = Some (Some e).
Proof. exact sampled_vector. Qed.
Print Assumptions C81_vector.

(** M2 from four samples with noise that no M2 tide can follow *)
Example C81_example_scalar : exists L t u lat opts sm c r, analysis L t u None lat opts sm c /\ lstsq_minimises L /\ inv_exact L /\ mvn_shape L /\
  setting opts "method" (PStr "ols") /\ setting opts "infer" PNone /\ setting opts "conf_int" (PStr "MC") /\ setting opts "white" (PBool true) /\
  (params c < length sm)%nat /\ In r (rows c) /\ w_lind r = Some 47%nat.
Proof.
  destruct (n_run true false (RtoC 1) (1, 2) (Cconj (1, 2)) (RtoC 3)) as (c & AN & E1 & E2 & E3 & E4 & E5 & E6 & E7 & r & R1 & R2 & R3 & R4).
  { intros _. cbn. auto. }
  do 7 eexists. exists r. split; [exact AN|]. split; [apply noisy_minimises; [apply noise_0|apply noise_x|apply noise_y]|]. split; [apply noisy_inv|].
  split; [apply noisy_mvn|].
  repeat (split; [first [left; cbn; tauto | right; split; [cbn; intros K; repeat (destruct K as [K|K]; [discriminate|]); exact K|cbn; tauto]]|]).
  split; [unfold params; rewrite E6, E4; cbn; lia|]. auto.
Qed.
Example C81_example_vector : exists L t u v lat opts sm c r, analysis L t u (Some v) lat opts sm c /\ lstsq_minimises L /\ inv_exact L /\ mvn_shape L /\
  setting opts "method" (PStr "ols") /\ setting opts "infer" PNone /\ setting opts "conf_int" (PStr "MC") /\ setting opts "white" (PBool true) /\
  (params c < length sm)%nat /\ In r (rows c) /\ w_lind r = Some 47%nat.
Proof.
  destruct (n_run true true (1, 2) (2, 1) (1, 0) (5, 6)) as (c & AN & E1 & E2 & E3 & E4 & E5 & E6 & E7 & r & R1 & R2 & R3 & R4).
  { discriminate. }
  do 8 eexists. exists r. split; [exact AN|]. split; [apply noisy_minimises; [apply noise_0|apply noise_x|apply noise_y]|]. split; [apply noisy_inv|].
  split; [apply noisy_mvn|].
  repeat (split; [first [left; cbn; tauto | right; split; [cbn; intros K; repeat (destruct K as [K|K]; [discriminate|]); exact K|cbn; tauto]]|]).
  split; [unfold params; rewrite E6, E4; cbn; lia|]. auto.
Qed.
(** the noise is not zero *)
Example C81_example_noise : n4 1 <> 0. Proof. exact noise_n1. Qed.

(** C82.  The same for coloured noise and even sampling.  The covariance of the draws has the shape of the white
    one, scaled so that its trace is the noise level of the constituent's frequency band; what nearestSPD or its
    fallback changes is an addition to the diagonal or the loss of the off-diagonal part. *)
Theorem C82_scalar : forall L t u lat opts sm c, analysis L t u None lat opts sm c -> lstsq_minimises L -> inv_exact L -> mvn_shape L -> svd_exact L 2 ->
  (forall x, 0 <= l_spacing L x) ->
  setting opts "method" (PStr "ols") -> setting opts "infer" PNone -> setting opts "conf_int" (PStr "MC") -> setting opts "white" (PBool false) ->
  (params c < length sm)%nat ->
  forall xs, normalize_time (l_parse L) (arr_data t) (o_epoch (c_opt c)) = Ok xs -> o_equi (c_opt c) = true -> increasing (valid_times xs) ->
  forall rs, residuals c sm rs ->
  exists series frqs levels,
    residual_series true (valid_times xs) (map fst sm) (map fst rs) (valid_times xs) series /\
    Permutation (map Some frqs) (map w_frq (rows c)) /\ noise_spectrum (valid_times xs) series frqs levels /\
    forall r i f, In r (rows c) -> w_lind r = Some i -> w_frq r = Some f ->
    forall wX wY q, best_unbiased c sm i true wX -> best_unbiased c sm i false wY -> noise_variance fst c sm q -> 0 < q ->
    let X := estimate fst wX sm in let Y := estimate fst wY sm in
    let x := squares wX / (squares wX + squares wY) in let y := squares wY / (squares wX + squares wY) in let z := products wX wY / (squares wX + squares wY) in
    w_A r = Some (Some (A_of X Y)) /\ w_g r = Some (g1_of X Y) /\
    exists P cov a b, noise_at (effective_length (valid_times xs)) levels f (Fin P) /\ 0 <= P /\
      ((exists e, 0 <= e /\ cov = [[P * x + e; P * z]; [P * z; P * y + e]]) \/ cov = [[P * x; 0]; [0; P * y]]) /\
      scalar_draws L X Y cov 200 (g1_of X Y) a b /\ w_A_ci r = Some (Some a) /\ w_g_ci r = Some (Some b).
Proof. exact coloured_sampled_scalar. Qed.
Print Assumptions C82_scalar.

(** Vector data.  The blocks of u and of v have the traces of their own noise levels; the block between them is
    scaled by the sum of the absolute values of its four entries and has the sign of the residuals' covariance. *)
Theorem C82_vector : forall L t u v lat opts sm c, analysis L t u (Some v) lat opts sm c -> lstsq_minimises L -> inv_exact L -> mvn_shape L ->
  setting opts "method" (PStr "ols") -> setting opts "infer" PNone -> setting opts "conf_int" (PStr "MC") -> setting opts "white" (PBool false) ->
  (params c < length sm)%nat ->
  forall xs, normalize_time (l_parse L) (arr_data t) (o_epoch (c_opt c)) = Ok xs -> o_equi (c_opt c) = true -> increasing (valid_times xs) ->
  forall rs, residuals c sm rs ->
  exists U V frqs lu lv luv,
    let times := valid_times xs in let T := effective_length times in
    residual_series true times (map fst sm) (map fst rs) times U /\ residual_series true times (map fst sm) (map snd rs) times V /\
    Permutation (map Some frqs) (map w_frq (rows c)) /\
    noise_spectrum times U frqs lu /\ noise_spectrum times V frqs lv /\ cross_noise_spectrum times U V frqs luv /\
    forall r i f, In r (rows c) -> w_lind r = Some i -> w_frq r = Some f ->
    forall wX wY qu qv quv, best_unbiased c sm i true wX -> best_unbiased c sm i false wY ->
    noise_variance fst c sm qu -> noise_variance snd c sm qv -> noise_covariance c sm quv -> 0 < qu -> 0 < qv ->
    let Xu := estimate fst wX sm in let Yu := estimate fst wY sm in let Xv := estimate snd wX sm in let Yv := estimate snd wY sm in
    let s := squares wX + squares wY in let xx := squares wX / s in let yy := squares wY / s in let xy := products wX wY / s in
    let s' := squares wX + 2 * Rabs (products wX wY) + squares wY in
    let xx' := squares wX / s' in let yy' := squares wY / s' in let xy' := products wX wY / s' in
    w_Lsmaj r = Some (Some (maj_of Xu Yu Xv Yv)) /\ w_Lsmin r = Some (Some (min_of Xu Yu Xv Yv)) /\
    w_theta r = Some (Some (theta_of Xu Yu Xv Yv)) /\ w_g r = Some (g_of Xu Yu Xv Yv) /\
    exists P Q S cov gave_up k a b d e, noise_at T lu f (Fin P) /\ 0 <= P /\ noise_at T lv f (Fin Q) /\ 0 <= Q /\ (quv <> 0 -> noise_at T luv f (Fin S)) /\
      let W := sign quv * S in
      nearestSPD L 4 [[P * xx; P * xy; W * xx'; W * xy']; [P * xy; P * yy; W * xy'; W * yy'];
                      [W * xx'; W * xy'; Q * xx; Q * xy]; [W * xy'; W * yy'; Q * xy; Q * yy]] = Ok (cov, gave_up, k) /\
      vector_draws L Xu Yu Xv Yv cov 200 (theta_of Xu Yu Xv Yv) (g_of Xu Yu Xv Yv) a b d e /\
      w_Lsmaj_ci r = Some (Some a) /\ w_Lsmin_ci r = Some (Some b) /\ w_theta_ci r = Some (Some d) /\ w_g_ci r = Some (Some e).
Proof. exact coloured_sampled_vector. Qed.
Print Assumptions C82_vector.

(** M2 from four hourly samples with noise that no M2 tide can follow *)
Example C82_example_scalar : exists L t u lat opts sm c xs rs r, analysis L t u None lat opts sm c /\ lstsq_minimises L /\ inv_exact L /\ mvn_shape L /\ svd_exact L 2 /\
  (forall x, 0 <= l_spacing L x) /\
  setting opts "method" (PStr "ols") /\ setting opts "infer" PNone /\ setting opts "conf_int" (PStr "MC") /\ setting opts "white" (PBool false) /\
  (params c < length sm)%nat /\ normalize_time (l_parse L) (arr_data t) (o_epoch (c_opt c)) = Ok xs /\ o_equi (c_opt c) = true /\ increasing (valid_times xs) /\
  residuals c sm rs /\ In r (rows c) /\ w_lind r = Some 47%nat /\ (exists f, w_frq r = Some f) /\ exists q, noise_variance fst c sm q /\ 0 < q.
Proof.
  destruct (h_run true false (RtoC 1) (1, 2) (Cconj (1, 2)) (RtoC 3)) as (c & AN & E1 & E2 & E3 & E4 & E5 & RS & r & R1 & R2 & R3 & R4).
  { intros _. cbn. auto. }
  { cbn. lra. }
  { discriminate. }
  do 7 eexists. exists (map Fin hourly). eexists. exists r. split; [exact AN|].
  split; [apply h_minimises|]. split; [apply hour_inv|]. split; [apply hour_mvn|]. split; [apply hour_svd|]. split; [intros; apply Rle_refl|].
  repeat (split; [first [left; cbn; tauto | right; split; [cbn; intros K; repeat (destruct K as [K|K]; [discriminate|]); exact K|cbn; tauto]]|]).
  split; [unfold params; rewrite E5, E3; cbn; lia|]. split; [rewrite E4; reflexivity|]. split; [exact E2|]. split; [exact hourly_incr|]. split; [exact RS|].
  split; [exact R1|]. split; [exact R2|]. split; [eauto|].
  eexists. split; [eexists; split; [exact RS|reflexivity]|]. apply Rdiv_lt_0_compat; [|unfold params; rewrite E5, E3; cbn; lra].
  apply h_squares_u. cbn. lra.
Qed.
Example C82_example_vector : exists L t u v lat opts sm c xs rs r, analysis L t u (Some v) lat opts sm c /\ lstsq_minimises L /\ inv_exact L /\ mvn_shape L /\
  setting opts "method" (PStr "ols") /\ setting opts "infer" PNone /\ setting opts "conf_int" (PStr "MC") /\ setting opts "white" (PBool false) /\
  (params c < length sm)%nat /\ normalize_time (l_parse L) (arr_data t) (o_epoch (c_opt c)) = Ok xs /\ o_equi (c_opt c) = true /\ increasing (valid_times xs) /\
  residuals c sm rs /\ In r (rows c) /\ w_lind r = Some 47%nat /\ (exists f, w_frq r = Some f) /\
  (exists q, noise_variance fst c sm q /\ 0 < q) /\ exists q, noise_variance snd c sm q /\ 0 < q.
Proof.
  destruct (h_run true true (1, 2) (2, 1) (1, 0) (5, 6)) as (c & AN & E1 & E2 & E3 & E4 & E5 & RS & r & R1 & R2 & R3 & R4).
  { discriminate. }
  { cbn. lra. }
  { cbn. lra. }
  do 8 eexists. exists (map Fin hourly). eexists. exists r. split; [exact AN|].
  split; [apply h_minimises|]. split; [apply hour_inv|]. split; [apply hour_mvn|].
  repeat (split; [first [left; cbn; tauto | right; split; [cbn; intros K; repeat (destruct K as [K|K]; [discriminate|]); exact K|cbn; tauto]]|]).
  split; [unfold params; rewrite E5, E3; cbn; lia|]. split; [rewrite E4; reflexivity|]. split; [exact E2|]. split; [exact hourly_incr|]. split; [exact RS|].
  split; [exact R1|]. split; [exact R2|]. split; [eauto|].
  split; eexists; (split; [eexists; split; [exact RS|reflexivity]|]; apply Rdiv_lt_0_compat; [|unfold params; rewrite E5, E3; cbn; lra]).
  - apply h_squares_u. cbn. lra.
  - apply h_squares_v. cbn. lra.
Qed.
