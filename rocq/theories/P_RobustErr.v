(** Property C87: intervals of an analysis with sample weights. *)
From Coq Require Import Lia Lra.
From Coquelicot Require Import Coquelicot.
From Verif Require Import M_Base M_Lib M_Options M_Slvinit M_Select M_Ellipse M_Conf M_Solve M_Diag M_Recon
  S_Order S_Ellipse S_Dict S_Options S_Fit S_Recon S_Model S_Conf S_Errors S_Robust S_RobustErr
  L_OptSolve L_Angle L_Example L_Example3 L_Example5 L_Example7 L_Example11 L_Example12 L_RobErr3 L_RobErr4.
Open Scope R_scope.
Open Scope string_scope.

(** C87.  An analysis (robust or not) that reports finite sample weights, without inference and with linearised
    intervals, from more samples than parameters.  The weights lie between 0 and 1, one per sample, and for every
    constituent the unbiased estimates of least variance, for errors of variance 1/weight, are unique, as is the
    measure of the noise. *)
Theorem C87_exists : forall L t u v lat opts sm c w, analysis L t u v lat opts sm c -> inv_exact L ->
  setting opts "infer" PNone -> setting opts "conf_int" (PStr "linear") ->
  (params c < length sm)%nat -> c_weights c = map Fin w ->
  Forall (fun a => 0 <= a <= 1) w /\ length w = length sm /\
  forall r i, In r (rows c) -> w_lind r = Some i ->
  (exists! oX, best_weighted c sm w i true oX) /\ (exists! oY, best_weighted c sm w i false oY) /\
  (exists! qu, noise_measure fst c sm w qu) /\ (exists! qv, noise_measure snd c sm w qv).
Proof. exact weighted_exist. Qed.
Print Assumptions C87_exists.

(** Scalar data, white noise: the half-widths are 1.96 standard errors of these estimates at this measure of the noise, and
    undefined when the measure is negative. *)
Theorem C87_scalar : forall L t u lat opts sm c w, analysis L t u None lat opts sm c -> inv_exact L ->
  setting opts "infer" PNone -> setting opts "conf_int" (PStr "linear") -> setting opts "white" (PBool true) ->
  (params c < length sm)%nat -> c_weights c = map Fin w ->
  forall r i A g, In r (rows c) -> w_lind r = Some i -> w_A r = Some (Some A) -> w_g r = Some g -> A <> 0 ->
  forall oX oY q, best_weighted c sm w i true oX -> best_weighted c sm w i false oY -> noise_measure fst c sm w q ->
  let C := cos (rad g) in let S := sin (rad g) in let x := q * weighted_squares w oX in let y := q * weighted_squares w oY in
  (0 <= q -> w_A_ci r = Some (Some (Fin (196 / 100 * sqrt (C ^ 2 * x + S ^ 2 * y)))) /\
             w_g_ci r = Some (Some (Fin (196 / 100 * (180 / PI) / A * sqrt (S ^ 2 * x + C ^ 2 * y))))) /\
  (q < 0 -> w_A_ci r = Some (Some NaN) /\ w_g_ci r = Some (Some NaN)).
Proof. exact scalar_weighted. Qed.
Print Assumptions C87_scalar.

(** Vector data, white noise. *)
Theorem C87_vector : forall L t u v lat opts sm c w, analysis L t u (Some v) lat opts sm c -> inv_exact L ->
  setting opts "infer" PNone -> setting opts "conf_int" (PStr "linear") -> setting opts "white" (PBool true) ->
  (params c < length sm)%nat -> c_weights c = map Fin w ->
  forall r i, In r (rows c) -> w_lind r = Some i ->
  forall oX oY qu qv, best_weighted c sm w i true oX -> best_weighted c sm w i false oY -> noise_measure fst c sm w qu -> noise_measure snd c sm w qv ->
  exists Xu Yu Xv Yv,
  w_Lsmaj r = Some (Some (maj_of Xu Yu Xv Yv)) /\ w_Lsmin r = Some (Some (min_of Xu Yu Xv Yv)) /\
  w_theta r = Some (Some (theta_of Xu Yu Xv Yv)) /\ w_g r = Some (g_of Xu Yu Xv Yv) /\
  (0 <= qu -> 0 <= qv ->
   (~ circular Xu Yu Xv Yv -> exists dmaj dmin dth dg,
     partials maj_of Xu Yu Xv Yv dmaj /\ partials min_of Xu Yu Xv Yv dmin /\
     turn_partials 180 theta_of Xu Yu Xv Yv dth /\ turn_partials 180 g_of Xu Yu Xv Yv dg /\
     let x := weighted_squares w oX in let y := weighted_squares w oY in
     let half_width := fun d => Fin (196 / 100 * propagated d (sqrt (qu * x)) (sqrt (qu * y)) (sqrt (qv * x)) (sqrt (qv * y))) in
     w_Lsmaj_ci r = Some (Some (half_width dmaj)) /\ w_g_ci r = Some (Some (half_width dg)) /\
     (Xv <> 0 -> w_Lsmin_ci r = Some (Some (half_width dmin)) /\ w_theta_ci r = Some (Some (half_width dth)))) /\
   (Xv = 0 -> w_Lsmin_ci r = Some (Some (Fin 0)) /\ w_theta_ci r = Some (Some (Fin 0)))) /\
  (qu < 0 \/ qv < 0 -> w_Lsmaj_ci r = Some (Some NaN) /\ w_g_ci r = Some (Some NaN)).
Proof. exact vector_weighted. Qed.
Print Assumptions C87_vector.

(** Adding a constant to the data, with weights and residuals as before, changes the measure of the noise by that
    constant times the weighted sum of the residuals over the degrees of freedom. *)
Theorem C87_datum : forall part K c c' sm w rs q q', (forall a b, part (Cplus a b) = part a + part b) -> length w = length sm ->
  residuals c sm rs -> residuals c' (on_datum K sm) rs -> params c' = params c -> (params c < length sm)%nat ->
  noise_measure part c sm w q -> noise_measure part c' (on_datum K sm) w q' ->
  q' = q + part K * rsum (map (fun p => fst p * part (snd p)) (combine w rs)) / (INR (length sm) - INR (params c)).
Proof. exact measure_shift. Qed.
Print Assumptions C87_datum.

(** The claim that the intervals of a robust analysis do not depend on the vertical datum is false: a level changed by
    1000 leaves weights, amplitude and phase as they were and makes both half-widths NaN. *)
Theorem C87_datum_refuted : exists L t u u' lat opts sm c c' r r' A g ci gi,
  analysis L t u None lat opts sm c /\ analysis L t u' None lat opts (on_datum (RtoC 1000) sm) c' /\
  (forall rc, lstsq_contract L rc) /\ inv_exact L /\
  setting opts "method" (PStr "robust") /\ setting opts "infer" PNone /\ setting opts "conf_int" (PStr "linear") /\ setting opts "white" (PBool true) /\
  c_weights c' = c_weights c /\ rows c = [r] /\ rows c' = [r'] /\
  w_A r = Some (Some A) /\ w_A r' = Some (Some A) /\ w_g r = Some g /\ w_g r' = Some g /\
  w_A_ci r = Some (Some (Fin ci)) /\ w_A_ci r' = Some (Some NaN) /\ w_g_ci r = Some (Some (Fin gi)) /\ w_g_ci r' = Some (Some NaN).
Proof. exact datum_matters. Qed.
Print Assumptions C87_datum_refuted.

(** a robust analysis of seven samples whose weights differ from each other, at two levels *)
Example C87_example_scalar : forall K, K = 0 \/ K = 1000 -> exists L t u lat opts sm c w r A g,
  analysis L t u None lat opts sm c /\ inv_exact L /\ (forall rc, lstsq_contract L rc) /\
  setting opts "method" (PStr "robust") /\ setting opts "infer" PNone /\ setting opts "conf_int" (PStr "linear") /\ setting opts "white" (PBool true) /\
  (params c < length sm)%nat /\ c_weights c = map Fin w /\ nth 1 w 0 <> nth 2 w 0 /\
  In r (rows c) /\ w_lind r = Some 47%nat /\ w_A r = Some (Some A) /\ w_g r = Some g /\ A <> 0.
Proof.
  intros K HK. destruct (run7 K HK) as (c & AN & T & N1 & N2 & N3 & IN & RT & NM & LI & WE & ME & r & Hr & Hl & Hg & HA).
  exists L7, t7, (u7 K), (Some 45), opts7, (sm7 K), c, W7, r. do 2 eexists. split; [exact AN|]. split; [apply levels_inv|].
  split; [intros rc; apply levels_contract; [exact cos_sin_one|exact sin_al]|].
  split; [left; cbn; tauto|]. split; [right; split; [cbn; intuition discriminate|cbn; tauto]|].
  split; [left; cbn; tauto|]. split; [left; cbn; tauto|].
  split; [unfold params; rewrite NM, N3; cbn; lia|]. split; [exact WE|]. split; [exact weights7|].
  split; [rewrite Hr; now left|]. split; [exact Hl|]. split; [exact HA|]. split; [exact Hg|]. rewrite amp7. lra.
Qed.
(** vector data *)
Example C87_example_vector : exists L t u v lat opts sm c w r, analysis L t u (Some v) lat opts sm c /\ inv_exact L /\
  setting opts "infer" PNone /\ setting opts "conf_int" (PStr "linear") /\ setting opts "white" (PBool true) /\
  (params c < length sm)%nat /\ c_weights c = map Fin w /\ In r (rows c) /\ w_lind r = Some 47%nat.
Proof.
  destruct (n_run false true (1, 2) (2, 1) (1, 0) (5, 6)) as (c & AN & E1 & E2 & E3 & E4 & E5 & E6 & E7 & r & R1 & R2 & R3 & R4).
  { discriminate. }
  destruct (all_ones (c_weights c)) as [w Hw].
  { refine (ols_weights _ _ _ _ _ _ _ (an_keys _ _ _ _ _ _ _ _ AN) _ (an_solve _ _ _ _ _ _ _ _ AN)).
    first [left; cbn; tauto | right; split; [cbn; intros K; repeat (destruct K as [K|K]; [discriminate|]); exact K|cbn; tauto]]. }
  do 8 eexists. exists w, r. split; [exact AN|]. split; [apply noisy_inv|].
  repeat (split; [first [left; cbn; tauto | right; split; [cbn; intros K; repeat (destruct K as [K|K]; [discriminate|]); exact K|cbn; tauto]]|]).
  split; [unfold params; rewrite E6, E4; cbn; lia|]. auto.
Qed.
