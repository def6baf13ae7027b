(** Property C77: standard errors of a whole analysis. *)
From Coq Require Import Lia Lra.
From Coquelicot Require Import Coquelicot.
From Verif Require Import M_Base M_Lib M_Options M_Slvinit M_Select M_Ellipse M_Conf M_Solve M_Diag M_Recon
  S_Order S_Ellipse S_Dict S_Options S_Fit S_Recon S_Model S_Conf S_Errors L_Angle L_Example L_Example3 L_Example5 L_Example7 L_Errors6.
Open Scope R_scope.
Open Scope string_scope.

(** C77.  Ordinary least squares without inference, linearised intervals for white noise, more samples than
    parameters.  For every constituent there are unique weights that estimate its cosine coefficient without bias
    and with least variance, the same for the sine coefficient, and a unique estimate of the noise. *)
Theorem C77_exists : forall L t u v lat opts sm c, analysis L t u v lat opts sm c -> lstsq_minimises L -> inv_exact L ->
  setting opts "method" (PStr "ols") -> setting opts "infer" PNone -> setting opts "conf_int" (PStr "linear") ->
  (params c < length sm)%nat ->
  forall r i, In r (rows c) -> w_lind r = Some i ->
  (exists! wX, best_unbiased c sm i true wX) /\ (exists! wY, best_unbiased c sm i false wY) /\
  (exists! qu, noise_variance fst c sm qu) /\ (exists! qv, noise_variance snd c sm qv).
Proof. exact errors_exist. Qed.
Print Assumptions C77_exists.

(** Scalar data: the reported amplitude and phase are those of the best unbiased estimates, and the half-widths are
    1.96 standard errors of the amplitude and of the phase (in degrees). *)
Theorem C77_scalar : forall L t u lat opts sm c, analysis L t u None lat opts sm c -> lstsq_minimises L -> inv_exact L ->
  setting opts "method" (PStr "ols") -> setting opts "infer" PNone -> setting opts "conf_int" (PStr "linear") -> setting opts "white" (PBool true) ->
  (params c < length sm)%nat ->
  forall r i A g, In r (rows c) -> w_lind r = Some i -> w_A r = Some (Some A) -> w_g r = Some g -> A <> 0 ->
  forall wX wY q, best_unbiased c sm i true wX -> best_unbiased c sm i false wY -> noise_variance fst c sm q ->
  let C := cos (rad g) in let S := sin (rad g) in
  A * C = estimate fst wX sm /\ A * S = estimate fst wY sm /\
  w_A_ci r = Some (Some (Fin (196 / 100 * sqrt (C ^ 2 * (q * squares wX) + S ^ 2 * (q * squares wY))))) /\
  w_g_ci r = Some (Some (Fin (196 / 100 * (180 / PI) / A * sqrt (S ^ 2 * (q * squares wX) + C ^ 2 * (q * squares wY))))).
Proof. exact scalar_errors. Qed.
Print Assumptions C77_scalar.

(** Vector data: each component has its own noise variance; away from circular motion the half-widths of major axis
    and phase are 1.96 propagated standard errors, those of minor axis and orientation too unless the cosine
    coefficient of v is exactly zero. *)
Theorem C77_vector : forall L t u v lat opts sm c, analysis L t u (Some v) lat opts sm c -> lstsq_minimises L -> inv_exact L ->
  setting opts "method" (PStr "ols") -> setting opts "infer" PNone -> setting opts "conf_int" (PStr "linear") -> setting opts "white" (PBool true) ->
  (params c < length sm)%nat ->
  forall r i, In r (rows c) -> w_lind r = Some i ->
  forall wX wY qu qv, best_unbiased c sm i true wX -> best_unbiased c sm i false wY -> noise_variance fst c sm qu -> noise_variance snd c sm qv ->
  let Xu := estimate fst wX sm in let Yu := estimate fst wY sm in let Xv := estimate snd wX sm in let Yv := estimate snd wY sm in
  w_Lsmaj r = Some (Some (maj_of Xu Yu Xv Yv)) /\ w_Lsmin r = Some (Some (min_of Xu Yu Xv Yv)) /\
  w_theta r = Some (Some (theta_of Xu Yu Xv Yv)) /\ w_g r = Some (g_of Xu Yu Xv Yv) /\
  (~ circular Xu Yu Xv Yv -> exists dmaj dmin dth dg,
    partials maj_of Xu Yu Xv Yv dmaj /\ partials min_of Xu Yu Xv Yv dmin /\
    turn_partials 180 theta_of Xu Yu Xv Yv dth /\ turn_partials 180 g_of Xu Yu Xv Yv dg /\
    let half_width := fun d => Fin (196 / 100 * propagated d (sqrt (qu * squares wX)) (sqrt (qu * squares wY)) (sqrt (qv * squares wX)) (sqrt (qv * squares wY))) in
    w_Lsmaj_ci r = Some (Some (half_width dmaj)) /\ w_g_ci r = Some (Some (half_width dg)) /\
    (Xv <> 0 -> w_Lsmin_ci r = Some (Some (half_width dmin)) /\ w_theta_ci r = Some (Some (half_width dth)))) /\
  (Xv = 0 -> w_Lsmin_ci r = Some (Some (Fin 0)) /\ w_theta_ci r = Some (Some (Fin 0))).
Proof. exact vector_errors. Qed.
Print Assumptions C77_vector.

(** M2 from four samples with noise that no M2 tide can follow: scalar with amplitude not zero, and vector *)
Example C77_example_scalar : exists L t u lat opts sm c r A g, analysis L t u None lat opts sm c /\ lstsq_minimises L /\ inv_exact L /\
  setting opts "method" (PStr "ols") /\ setting opts "infer" PNone /\ setting opts "conf_int" (PStr "linear") /\ setting opts "white" (PBool true) /\
  (params c < length sm)%nat /\ In r (rows c) /\ w_lind r = Some 47%nat /\ w_A r = Some (Some A) /\ w_g r = Some g /\ A <> 0.
Proof.
  destruct (n_run false false (RtoC 1) (1, 2) (Cconj (1, 2)) (RtoC 3)) as (c & AN & E1 & E2 & E3 & E4 & E5 & E6 & E7 & r & R1 & R2 & R3 & R4).
  { intros _. cbn. auto. }
  do 7 eexists. exists r. do 2 eexists. split; [exact AN|]. split; [apply noisy_minimises; [apply noise_0|apply noise_x|apply noise_y]|]. split; [apply noisy_inv|].
  repeat (split; [first [left; cbn; tauto | right; split; [cbn; intros K; repeat (destruct K as [K|K]; [discriminate|]); exact K|cbn; tauto]]|]).
  split; [unfold params; rewrite E6, E4; cbn; lia|]. split; [exact R1|]. split; [exact R2|]. split; [apply R4; reflexivity|]. split; [exact R3|].
  unfold ellipse_of, cs2cep1, e_maj, Xu_of, Yu_of, Cmod. cbn. apply Rgt_not_eq, sqrt_lt_R0. lra.
Qed.
Example C77_example_vector : exists L t u v lat opts sm c r, analysis L t u (Some v) lat opts sm c /\ lstsq_minimises L /\ inv_exact L /\
  setting opts "method" (PStr "ols") /\ setting opts "infer" PNone /\ setting opts "conf_int" (PStr "linear") /\ setting opts "white" (PBool true) /\
  (params c < length sm)%nat /\ In r (rows c) /\ w_lind r = Some 47%nat.
Proof.
  destruct (n_run false true (1, 2) (2, 1) (1, 0) (5, 6)) as (c & AN & E1 & E2 & E3 & E4 & E5 & E6 & E7 & r & R1 & R2 & R3 & R4).
  { discriminate. }
  do 8 eexists. exists r. split; [exact AN|]. split; [apply noisy_minimises; [apply noise_0|apply noise_x|apply noise_y]|]. split; [apply noisy_inv|].
  repeat (split; [first [left; cbn; tauto | right; split; [cbn; intros K; repeat (destruct K as [K|K]; [discriminate|]); exact K|cbn; tauto]]|]).
  split; [unfold params; rewrite E6, E4; cbn; lia|]. auto.
Qed.
(** the noise is not zero *)
Example C77_example_noise : n4 1 <> 0. Proof. exact noise_n1. Qed.
