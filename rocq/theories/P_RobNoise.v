(** Property C91: intervals of weighted (robust) analyses with coloured noise. *)
From Coq Require Import Lia Lra Permutation.
From Coquelicot Require Import Coquelicot.
From Verif Require Import M_Base M_Lib M_Options M_Time M_Slvinit M_Select M_Ellipse M_Robust M_Period M_Conf M_Solve M_Diag M_Recon
  S_Order S_Ellipse S_Dict S_Options S_Slv S_Fit S_Recon S_Model S_Conf S_Errors S_Period S_Noise S_Robust S_RobustErr S_RobNoise L_Ellipse2 L_Angle L_OptSolve L_Model7 L_Model15 L_Example L_Example3 L_Example5 L_Example7 L_Example8
  L_Example11 L_Example12 L_Example16 L_RobErr3 L_RobErr4 L_RobNoise L_RobNoise2.
Open Scope R_scope.
Open Scope string_scope.

(** C91.  An analysis (robust or not) that reports finite sample weights, with coloured noise, from an evenly spaced
    record.  The spectrum is that of the residuals times their weights, filled in linearly at the missing times.  The
    level at the constituent's frequency is shared between the cosine and the sine coefficient like their weighted
    variances; the measure of the noise itself drops out, unless it is zero (then the intervals are NaN). *)
Theorem C91_scalar : forall L t u lat opts sm c w, analysis L t u None lat opts sm c -> inv_exact L ->
  setting opts "infer" PNone -> setting opts "conf_int" (PStr "linear") -> setting opts "white" (PBool false) ->
  (params c < length sm)%nat -> c_weights c = map Fin w ->
  forall xs, normalize_time (l_parse L) (arr_data t) (o_epoch (c_opt c)) = Ok xs -> o_equi (c_opt c) = true -> increasing (valid_times xs) ->
  forall rs, residuals c sm rs ->
  exists series frqs levels,
    residual_series true (valid_times xs) (map fst sm) (map fst (weighted w rs)) (valid_times xs) series /\
    Permutation (map Some frqs) (map w_frq (rows c)) /\ noise_spectrum (valid_times xs) series frqs levels /\
    forall r i A g f, In r (rows c) -> w_lind r = Some i -> w_A r = Some (Some A) -> w_g r = Some g -> A <> 0 -> w_frq r = Some f ->
    forall oX oY q, best_weighted c sm w i true oX -> best_weighted c sm w i false oY -> noise_measure fst c sm w q ->
    let C := cos (rad g) in let S := sin (rad g) in
    let x := weighted_squares w oX / (weighted_squares w oX + weighted_squares w oY) in
    let y := weighted_squares w oY / (weighted_squares w oX + weighted_squares w oY) in
    exists level, noise_at (effective_length (valid_times xs)) levels f level /\
    (q <> 0 -> match level with
    | Fin P => 0 <= P /\ w_A_ci r = Some (Some (Fin (196 / 100 * sqrt (C ^ 2 * (P * x) + S ^ 2 * (P * y))))) /\
        w_g_ci r = Some (Some (Fin (196 / 100 * (180 / PI) / A * sqrt (S ^ 2 * (P * x) + C ^ 2 * (P * y)))))
    | _ => level = NaN /\ w_A_ci r = Some (Some NaN) /\ w_g_ci r = Some (Some NaN)
    end) /\
    (q = 0 -> w_A_ci r = Some (Some NaN) /\ w_g_ci r = Some (Some NaN)).
Proof. exact wcoloured_scalar. Qed.
Print Assumptions C91_scalar.

(** Vector data: the level of the second component replaces its noise measure; the first component keeps the noise
    measure of white noise.  Where that is negative the intervals are NaN. *)
Theorem C91_vector : forall L t u v lat opts sm c w, analysis L t u (Some v) lat opts sm c -> inv_exact L ->
  setting opts "infer" PNone -> setting opts "conf_int" (PStr "linear") -> setting opts "white" (PBool false) ->
  (params c < length sm)%nat -> c_weights c = map Fin w ->
  forall xs, normalize_time (l_parse L) (arr_data t) (o_epoch (c_opt c)) = Ok xs -> o_equi (c_opt c) = true -> increasing (valid_times xs) ->
  forall rs, residuals c sm rs ->
  exists series frqs levels,
    residual_series true (valid_times xs) (map fst sm) (map snd (weighted w rs)) (valid_times xs) series /\
    Permutation (map Some frqs) (map w_frq (rows c)) /\ noise_spectrum (valid_times xs) series frqs levels /\
    forall r i f P, In r (rows c) -> w_lind r = Some i -> w_frq r = Some f ->
    noise_at (effective_length (valid_times xs)) levels f (Fin P) ->
    forall oX oY qu qv, best_weighted c sm w i true oX -> best_weighted c sm w i false oY -> noise_measure fst c sm w qu -> noise_measure snd c sm w qv ->
    exists Xu Yu Xv Yv,
    w_Lsmaj r = Some (Some (maj_of Xu Yu Xv Yv)) /\ w_Lsmin r = Some (Some (min_of Xu Yu Xv Yv)) /\
    w_theta r = Some (Some (theta_of Xu Yu Xv Yv)) /\ w_g r = Some (g_of Xu Yu Xv Yv) /\
    let x := weighted_squares w oX in let y := weighted_squares w oY in
    (qv <> 0 -> 0 <= qu -> ~ circular Xu Yu Xv Yv -> 0 <= P /\ exists dmaj dmin dth dg,
      partials maj_of Xu Yu Xv Yv dmaj /\ partials min_of Xu Yu Xv Yv dmin /\
      turn_partials 180 theta_of Xu Yu Xv Yv dth /\ turn_partials 180 g_of Xu Yu Xv Yv dg /\
      let half_width := fun d => Fin (196 / 100 * propagated d (sqrt (qu * x)) (sqrt (qu * y)) (sqrt (P * (x / (x + y)))) (sqrt (P * (y / (x + y))))) in
      w_Lsmaj_ci r = Some (Some (half_width dmaj)) /\ w_g_ci r = Some (Some (half_width dg)) /\
      (Xv <> 0 -> w_Lsmin_ci r = Some (Some (half_width dmin)) /\ w_theta_ci r = Some (Some (half_width dth)))) /\
    (qv <> 0 -> qu < 0 -> w_Lsmaj_ci r = Some (Some NaN) /\ w_g_ci r = Some (Some NaN)).
Proof. exact wcoloured_vector. Qed.
Print Assumptions C91_vector.

(** A robust analysis of one series with coloured noise: scaling the data and moving the datum or adding a trend scales
    the intervals of amplitudes and leaves those of phases, unlike with white noise (C87_datum_refuted). *)
Theorem C91_datum : forall L t u u' lat opts sm c c' w k be ga, 0 < k ->
  let sm' := map (fun x => (fst x, Cplus (Cplus (Cmult (RtoC k) (snd x)) be) (Cmult (RtoC (fst x - c_reftime c)) ga))) sm in
  analysis L t u None lat opts sm c -> analysis L t u' None lat opts sm' c' ->
  (forall rc, lstsq_contract L rc) -> inv_exact L ->
  o_method (c_opt c) <> PStr "ols" -> setting opts "infer" PNone -> setting opts "conf_int" (PStr "linear") -> setting opts "white" (PBool false) ->
  o_equi (c_opt c) = true \/ lomb_quadratic L ->
  (params c < length sm)%nat -> c_weights c = map Fin w -> (o_notrend (c_opt c) = true -> ga = RtoC 0) ->
  forall q q', noise_measure fst c sm w q -> noise_measure fst c' sm' w q' -> q <> 0 -> q' <> 0 ->
  forall r, In r (rows c) -> exists r', In r' (rows c') /\ row_like k eq r r' /\ widths_scaled k r r'.
Proof. exact robust_coloured. Qed.
Print Assumptions C91_datum.

(** five days, one value missing, M2 and a mean *)
Example C91_example_scalar : exists L t u lat opts sm c w xs rs r A g, analysis L t u None lat opts sm c /\ inv_exact L /\
  setting opts "infer" PNone /\ setting opts "conf_int" (PStr "linear") /\ setting opts "white" (PBool false) /\
  (params c < length sm)%nat /\ c_weights c = map Fin w /\
  normalize_time (l_parse L) (arr_data t) (o_epoch (c_opt c)) = Ok xs /\ o_equi (c_opt c) = true /\ increasing (valid_times xs) /\
  residuals c sm rs /\ In r (rows c) /\ w_lind r = Some 47%nat /\ w_A r = Some (Some A) /\ w_g r = Some g /\ A <> 0.
Proof.
  destruct (g_run false (RtoC 1) (1, 2) (Cconj (1, 2)) (RtoC 3)) as (c & AN & E1 & E2 & E3 & E4 & E5 & RS & r & R1 & R2 & R3 & R4 & R5).
  { intros _. cbn. auto. }
  destruct (all_ones (c_weights c)) as [w Hw].
  { refine (ols_weights _ _ _ _ _ _ _ (an_keys _ _ _ _ _ _ _ _ AN) _ (an_solve _ _ _ _ _ _ _ _ AN)).
    first [left; cbn; tauto | right; split; [cbn; intros K; repeat (destruct K as [K|K]; [discriminate|]); exact K|cbn; tauto]]. }
  do 7 eexists. exists w, (map Fin five). eexists. exists r. do 2 eexists. split; [exact AN|].
  split; [apply noisy_inv|].
  repeat (split; [first [left; cbn; tauto | right; split; [cbn; intros K; repeat (destruct K as [K|K]; [discriminate|]); exact K|cbn; tauto]]|]).
  split; [unfold params; rewrite E5, E3; cbn; lia|]. split; [exact Hw|]. split; [rewrite E4; reflexivity|]. split; [exact E2|]. split; [exact five_incr|]. split; [exact RS|].
  split; [exact R1|]. split; [exact R2|]. split; [apply R5; reflexivity|]. split; [exact R4|].
  unfold ellipse_of, cs2cep1, e_maj, Xu_of, Yu_of, Cmod. cbn. apply Rgt_not_eq, sqrt_lt_R0. lra.
Qed.
Example C91_example_vector : exists L t u v lat opts sm c w xs rs r, analysis L t u (Some v) lat opts sm c /\ inv_exact L /\
  setting opts "infer" PNone /\ setting opts "conf_int" (PStr "linear") /\ setting opts "white" (PBool false) /\
  (params c < length sm)%nat /\ c_weights c = map Fin w /\
  normalize_time (l_parse L) (arr_data t) (o_epoch (c_opt c)) = Ok xs /\ o_equi (c_opt c) = true /\ increasing (valid_times xs) /\
  residuals c sm rs /\ In r (rows c) /\ w_lind r = Some 47%nat.
Proof.
  destruct (g_run true (1, 2) (2, 1) (1, 0) (5, 6)) as (c & AN & E1 & E2 & E3 & E4 & E5 & RS & r & R1 & R2 & R3 & R4 & R5).
  { discriminate. }
  destruct (all_ones (c_weights c)) as [w Hw].
  { refine (ols_weights _ _ _ _ _ _ _ (an_keys _ _ _ _ _ _ _ _ AN) _ (an_solve _ _ _ _ _ _ _ _ AN)).
    first [left; cbn; tauto | right; split; [cbn; intros K; repeat (destruct K as [K|K]; [discriminate|]); exact K|cbn; tauto]]. }
  do 8 eexists. exists w, (map Fin five). eexists. exists r. split; [exact AN|].
  split; [apply noisy_inv|].
  repeat (split; [first [left; cbn; tauto | right; split; [cbn; intros K; repeat (destruct K as [K|K]; [discriminate|]); exact K|cbn; tauto]]|]).
  split; [unfold params; rewrite E5, E3; cbn; lia|]. split; [exact Hw|]. split; [rewrite E4; reflexivity|]. split; [exact E2|]. split; [exact five_incr|]. split; [exact RS|]. auto.
Qed.
(** the seven samples of C87_datum_refuted: unequal weights, noise measures of opposite sign on the two datums *)
Example C91_example_datum : exists L t u u' lat opts sm c c' w q q' r,
  let sm' := map (fun x => (fst x, Cplus (Cplus (Cmult (RtoC 1) (snd x)) (RtoC 1000)) (Cmult (RtoC (fst x - c_reftime c)) (RtoC 0)))) sm in
  analysis L t u None lat opts sm c /\ analysis L t u' None lat opts sm' c' /\
  (forall rc, lstsq_contract L rc) /\ inv_exact L /\
  o_method (c_opt c) <> PStr "ols" /\ setting opts "infer" PNone /\ setting opts "conf_int" (PStr "linear") /\ setting opts "white" (PBool false) /\
  lomb_quadratic L /\ (params c < length sm)%nat /\ c_weights c = map Fin w /\ nth 1 w 0 <> nth 2 w 0 /\
  noise_measure fst c sm w q /\ noise_measure fst c' sm' w q' /\ 0 < q /\ q' < 0 /\ In r (rows c).
Proof.
  destruct (crun7 0 (or_introl eq_refl)) as (c & AN & T & N1 & N2 & N3 & IN & EQ & RT & NM & LI & WE & ME & r & Hr & Hl & Hg & HA).
  destruct (crun7 1000 (or_intror eq_refl)) as (c' & AN' & T' & N1' & N2' & N3' & IN' & EQ' & RT' & NM' & LI' & WE' & ME' & r' & Hr' & Hl' & Hg' & HA').
  assert (R0 := residuals7 0 c r (analysis_wf _ _ _ _ _ _ _ _ AN) T N1 N2 N3 RT NM LI ME Hr Hg HA).
  assert (R1 := residuals7 1000 c' r' (analysis_wf _ _ _ _ _ _ _ _ AN') T' N1' N2' N3' RT' NM' LI' ME' Hr' Hg' HA').
  assert (P0 : params c = 3%nat) by (unfold params; now rewrite NM, N3). assert (P1 : params c' = 3%nat) by (unfold params; now rewrite NM', N3').
  assert (S1 : setting copts7 "infer" PNone) by (right; split; [cbn; intuition discriminate|cbn; tauto]).
  assert (S2 : setting copts7 "conf_int" (PStr "linear")) by (left; cbn; tauto).
  assert (S4 : setting copts7 "method" (PStr "robust")) by (left; cbn; tauto).
  assert (IX := levels_inv x7 y7).
  assert (D0 : (params c < length (sm7 0))%nat) by (rewrite P0; cbn; lia). assert (D1 : (params c' < length (sm7 1000))%nat) by (rewrite P1; cbn; lia).
  assert (Ir : In r (rows c)) by (rewrite Hr; now left). assert (Ir' : In r' (rows c')) by (rewrite Hr'; now left).
  destruct (weighted_exist _ _ _ _ _ _ _ _ _ AN IX S1 S2 D0 WE) as (_ & _ & X0). destruct (X0 r _ Ir Hl) as (_ & _ & (q & NV & _) & _).
  destruct (weighted_exist _ _ _ _ _ _ _ _ _ AN' IX S1 S2 D1 WE') as (_ & _ & X1). destruct (X1 r' _ Ir' Hl') as (_ & _ & (q' & NV' & _) & _).
  assert (Q0 := measure7_sign _ _ R0 P0 NV). assert (Q1 := measure7_neg _ _ R1 P1 NV').
  assert (ES : sm7 1000 = map (fun x => (fst x, Cplus (Cplus (Cmult (RtoC 1) (snd x)) (RtoC 1000)) (Cmult (RtoC (fst x - c_reftime c)) (RtoC 0)))) (sm7 0)).
  { rewrite sm7_shifted. unfold on_datum. apply map_ext. intros x. apply f_equal. apply injective_projections; cbn; ring. }
  exists L7, t7, (u7 0), (u7 1000), (Some 45), copts7, (sm7 0), c, c', W7, q, q', r. cbv zeta. rewrite <- ES.
  split; [exact AN|]. split; [exact AN'|]. split; [intros rc; apply levels_contract; [exact cos_sin_one|exact sin_al]|]. split; [exact IX|].
  split. { rewrite (set_method _ _ _ _ _ _ (an_keys _ _ _ _ _ _ _ _ AN) _ (an_solve _ _ _ _ _ _ _ _ AN) _ S4). discriminate. }
  do 2 (split; [assumption|]). split; [left; cbn; tauto|].
  split. { intros k0 t0 x0 f0. cbn [levelsL l_lomb]. rewrite map_map. apply map_ext. intros _. ring. }
  split; [exact D0|]. split; [exact WE|]. split; [exact weights7|]. auto.
Qed.
