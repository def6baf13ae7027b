(** Properties C52 to C56, C74, C75: the robust fit. *)
From Coq Require Import Lia Lra.
From Verif Require Import M_Base M_Lib M_Robust M_Diag M_Options M_Slvinit M_Solve S_Model S_Robust L_Robust L_Robust2 L_Robust3 L_Example L_Model11 L_Example5 L_Robust4 L_Robust5.
Open Scope R_scope.
Open Scope string_scope.

(** C52.  A weight function that returns at all returns the documented formula of the scaled residual: 1 at
    zero, between 0 and 1, never increasing. *)
Theorem C52_weights : forall name f rs ws,
  wfunc name = Ok f -> Forall (fun r => 0 <= r) rs -> f (map Fin rs) = Ok ws ->
  exists phi, weight_formula name = Some phi /\ ws = map (fun r => Fin (phi r)) rs /\
    phi 0 = 1 /\ (forall r, 0 <= r -> 0 <= phi r <= 1) /\ (forall r s, 0 <= r -> r <= s -> phi s <= phi r).
Proof. exact weights_lemma. Qed.
Print Assumptions C52_weights.

(** a fit succeeds only with one of six names *)
Theorem C52_usable_names : forall L X y name tune rcond tol maxit r,
  robustfit L X y name tune rcond tol maxit = Ok r -> In name ["bisquare"; "cauchy"; "fair"; "ols"; "talwar"; "welsch"].
Proof. exact robust_unknown_name. Qed.
Print Assumptions C52_usable_names.

(** andrews, huber and logistic raise ValueError as soon as the unweighted fit has been made *)
Theorem C52_unusable_names : forall L X y name tune rcond tol maxit lev ls,
  In name ["andrews"; "huber"; "logistic"] ->
  leverage L X = Ok lev -> wsolve L X y rcond (map (fun _ => x1) y) = Ok ls ->
  robustfit L X y name tune rcond tol (S maxit) = Err ValueError.
Proof. exact robust_unusable_error. Qed.
Print Assumptions C52_unusable_names.

Example C52_example_welsch : exists f, wfunc "welsch" = Ok f /\ f (map Fin [0; 1; 2]) = Ok (map Fin [exp (- 0 ^ 2); exp (- 1 ^ 2); exp (- 2 ^ 2)]).
Proof. eexists. split; [reflexivity|]. cbn. repeat f_equal; ring. Qed.
Example C52_example_huber : robustfit colL X5 y5 "huber" None (PNum 1) (1 / 10 ^ 3) 50 = Err ValueError.
Proof.
  destruct (pass5_first (PNum 1)) as (ls & E & _). eapply C52_unusable_names; [right; left; reflexivity|exact lev5|exact E].
Qed.

(** C53.  The returned coefficients minimise the sum of squared misfits multiplied by the returned weights,
    unless the iteration was ended by maxit; then the weights are those computed from the coefficients. *)
Theorem C53_weights_match : forall L X y name tune rcond tol maxit r,
  robustfit L X y name tune rcond tol maxit = Ok r -> lstsq_contract L rcond ->
  length X = length y -> (exists row, In row X /\ row <> []) ->
  (exists w, rf_w r = map Fin w /\ length w = length y /\ Forall (fun a => 0 <= a <= 1) w /\ optimal X y w (rf_b r)) \/
  (rf_iterations r = maxit /\
   exists phi t, weight_formula name = Some phi /\ tuning name tune t /\
     reweighted phi t (rf_leverage r) X y (rf_b r) (rf_w r)).
Proof. exact robust_weights_match. Qed.
Print Assumptions C53_weights_match.

(** The same seen from solve with a method other than 'ols': no rival coefficients have a smaller misfit when the
    samples are weighted with coef.weights, unless robustfit used up maxit passes. *)
Theorem C53_solve : forall L t u v lat opts sm c, analysis L t u v lat opts sm c -> approximate (c_opt c) = false ->
  (forall rc, lstsq_contract L rc) -> o_method (c_opt c) <> PStr "ols" ->
  (exists w, c_weights c = map Fin w /\ length w = length sm /\ Forall (fun a => 0 <= a <= 1) w /\
     forall c', rival c c' -> exists d d', weighted_misfit c sm w d /\ weighted_misfit c' sm w d' /\ d <= d') \/
  (exists k d n X r, o_robust_kw (c_opt c) = PDict k d /\ kw_nat (kget d "maxit" (PNum 50)) = Ok n /\
     robustfit_kw L X (map snd sm) (PDict k d) = Ok r /\ c_weights c = rf_w r /\ rf_iterations r = n).
Proof. exact top_robust. Qed.
Print Assumptions C53_solve.

(** the mean of 0, 0, 1, 8 without constituents: the last sample gets weight 0 *)
Example C53_solve_example : exists c, analysis colL ex_t u4 None (Some 45) mean_opts sm4 c /\ approximate (c_opt c) = false /\
  (forall rc, lstsq_contract colL rc) /\ o_method (c_opt c) <> PStr "ols" /\
  c_weights c = map Fin [1; 1; 1; 0] /\ c_mean c = Some (1 / 3).
Proof.
  destruct mean_run as (c & A & I & M & W & Me). exists c. split; [exact A|]. split; [unfold approximate; now rewrite I|].
  split; [apply col_contract|]. split; [rewrite M; discriminate|]. split; [exact W|exact Me].
Qed.

(** after maxit the coefficients need not be optimal for the returned weights *)
Theorem C53_maxit_refuted : exists X y r w,
  (forall rc, lstsq_contract colL rc) /\ length X = length y /\ (exists row, In row X /\ row <> []) /\
  robustfit colL X y "talwar" None (PNum 1) (1 / 10 ^ 3) 1 = Ok r /\ rf_w r = map Fin w /\ ~ optimal X y w (rf_b r).
Proof. exact stale_weights. Qed.
Print Assumptions C53_maxit_refuted.

(** fitting a constant to 0, 0, 1, 5, 7: the last value is discarded *)
Example C53_example : exists r, robustfit colL X5 y5 "talwar" None (PNum 1) (1 / 2) 50 = Ok r /\
  lstsq_contract colL (PNum 1) /\ length X5 = length y5 /\ (exists row, In row X5 /\ row <> []) /\
  rf_b r = [RtoC (3 / 2)] /\ rf_w r = map Fin [1; 1; 1; 1; 0] /\ rf_iterations r = 2%nat.
Proof.
  destruct (run5_two (PNum 1) 48) as (r & E & B & W & _ & N). exists r. split; [exact E|].
  split; [apply col_contract|]. split; [exact X5_len|]. split; [exact X5_col|]. auto.
Qed.

(** C54.  The fit is an iteratively reweighted least squares run of at most maxit passes, beginning with unit
    weights; it ends when the weighted mean square rises (previous pass returned), falls by less than the
    fraction tol (last pass returned), or after maxit passes. *)
Theorem C54_passes : forall L X y name tune rcond tol maxit r,
  robustfit L X y name tune rcond tol maxit = Ok r -> lstsq_contract L rcond ->
  length X = length y -> (exists row, In row X /\ row <> []) ->
  exists phi t h, weight_formula name = Some phi /\ tuning name tune t /\
    passes phi t (rf_leverage r) X y h /\ (length h <= maxit)%nat /\
    ended phi t (rf_leverage r) X y tol maxit h (rf_b r) (rf_w r) (rf_rms_resid r) (rf_iterations r) /\
    (forall s l, h = s :: l -> rf_ols_b r = p_b s /\ rf_ols_rms_resid r = rms_of X y (p_b s)).
Proof. exact robust_history. Qed.
Print Assumptions C54_passes.

(** the returned coefficients have the smallest weighted mean square of all passes *)
Theorem C54_smallest : forall L X y name tune rcond tol maxit r,
  robustfit L X y name tune rcond tol maxit = Ok r -> lstsq_contract L rcond ->
  length X = length y -> (exists row, In row X /\ row <> []) ->
  exists h, (length h <= maxit)%nat /\ Forall (fun s => optimal X y (p_w s) (p_b s)) h /\
    exists s, In s h /\ rf_b r = p_b s /\ forall u, In u h -> mean_square X y s <= mean_square X y u.
Proof. exact robust_smallest. Qed.
Print Assumptions C54_smallest.

(** maxit = 0 never succeeds *)
Theorem C54_no_pass : forall L X y name tune rcond tol r, robustfit L X y name tune rcond tol 0 <> Ok r.
Proof. exact robust_no_pass. Qed.
Print Assumptions C54_no_pass.

(** a run of two passes, ended by convergence (C53_example), and a run of one pass, ended by maxit *)
Example C54_example : exists r, robustfit colL X5 y5 "talwar" None (PNum 1) (1 / 10 ^ 3) 1 = Ok r /\
  lstsq_contract colL (PNum 1) /\ length X5 = length y5 /\ (exists row, In row X5 /\ row <> []) /\
  rf_b r = [RtoC (13 / 5)] /\ rf_w r = map Fin [1; 1; 1; 1; 0] /\ rf_iterations r = 1%nat.
Proof.
  destruct (run5_one (PNum 1) (1 / 10 ^ 3)) as (r & E & B & W & N). exists r. split; [exact E|].
  split; [apply col_contract|]. split; [exact X5_len|]. split; [exact X5_col|]. auto.
Qed.

(** C55.  The reported rms residual is that of the returned coefficients, or (after convergence) that of the
    coefficients of the pass before. *)
Theorem C55_rms : forall L X y name tune rcond tol maxit r,
  robustfit L X y name tune rcond tol maxit = Ok r -> lstsq_contract L rcond ->
  length X = length y -> (exists row, In row X /\ row <> []) ->
  rf_rms_resid r = rms_of X y (rf_b r) \/
  exists s s', optimal X y (p_w s) (p_b s) /\ optimal X y (p_w s') (p_b s') /\
    rf_b r = p_b s' /\ rf_w r = map Fin (p_w s') /\ rf_rms_resid r = rms_of X y (p_b s) /\
    mean_square X y s' <= mean_square X y s /\ mean_square X y s - mean_square X y s' < tol * mean_square X y s.
Proof. exact robust_rms. Qed.
Print Assumptions C55_rms.

(** the second case does not give the rms residual of the returned coefficients *)
Theorem C55_converged_refuted : exists X y r,
  (forall rc, lstsq_contract colL rc) /\ length X = length y /\ (exists row, In row X /\ row <> []) /\
  robustfit colL X y "talwar" None (PNum 1) (1 / 2) 50 = Ok r /\ rf_rms_resid r <> rms_of X y (rf_b r).
Proof. exact stale_rms. Qed.
Print Assumptions C55_converged_refuted.

(** C56.  The scale estimate is the median absolute deviation from the median over 0.6745, and not negative *)
Theorem C56_scale : forall z,
  scale_is z (sigma_hat z) /\ (forall s, scale_is z s -> s = sigma_hat z) /\ 0 <= sigma_hat z.
Proof. exact scale_lemma. Qed.
Print Assumptions C56_scale.

(** a shift does not change it, a real factor multiplies it *)
Theorem C56_shift_and_factor : forall z c d, z <> [] ->
  sigma_hat (map (fun x => Cplus (Cmult (RtoC c) x) d) z) = Rabs c * sigma_hat z.
Proof. exact scale_moves. Qed.
Print Assumptions C56_shift_and_factor.

(** turning vectors by 90 degrees can change it *)
Theorem C56_rotation_refuted : exists z, sigma_hat (map (Cmult Ci) z) <> sigma_hat z.
Proof. exact scale_turned. Qed.
Print Assumptions C56_rotation_refuted.

Example C56_example : sigma_hat (misfits X5 y5 [RtoC 0]) = 1 / 0.6745.
Proof. symmetry. apply C56_scale, scale5. Qed.

(** C74.  Data that the model fits exactly cannot be fitted by the robust method with a smooth weight function. *)
Theorem C74_exact_data : forall L X y name tune rcond tol maxit lev t ls,
  In name ["bisquare"; "cauchy"; "fair"; "welsch"] -> tuning name tune t -> y <> [] -> length X = length y ->
  leverage L X = Ok lev -> wsolve L X y rcond (map (fun _ => x1) y) = Ok ls -> cmatvec X (ls_b ls) = y ->
  robustfit L X y name tune rcond tol (S (S maxit)) = Err LinAlgError.
Proof. exact robust_exact_data. Qed.
Print Assumptions C74_exact_data.

(** fitting a constant to 3, 3, 3, 3, 3 *)
Example C74_example : robustfit colL X5 (repeat (RtoC 3) 5) "cauchy" None (PNum 1) (1 / 10 ^ 3) 50 = Err LinAlgError.
Proof.
  destruct (flat5 (PNum 1)) as (ls & E & F).
  eapply C74_exact_data; [right; left; reflexivity|reflexivity|discriminate|reflexivity|exact lev5|exact E|exact F].
Qed.

(** C75.  The leverages are the diagonal of the hat matrix X pinv(X), and lie in [0, 1]. *)
Theorem C75_leverage : forall L X P lev, l_pinv L X = Ok P -> leverage L X = Ok lev ->
  length lev = length X /\ forall i, (i < length X)%nat -> nth i lev 0 = Cmod (entry_at (mat_mul X P) i i).
Proof. exact leverage_spec. Qed.
Print Assumptions C75_leverage.
Theorem C75_range : forall L X P lev, l_pinv L X = Ok P -> projection (mat_mul X P) (length X) -> leverage L X = Ok lev ->
  Forall (fun h => 0 <= h <= 1) lev.
Proof. exact leverage_range. Qed.
Print Assumptions C75_range.
Example C75_example : exists P lev, l_pinv colL X5 = Ok P /\ projection (mat_mul X5 P) (length X5) /\ leverage colL X5 = Ok lev /\ lev <> [].
Proof.
  destruct proj5 as (P & E & H). exists P, [1 / 5; 1 / 5; 1 / 5; 1 / 5; 1 / 5].
  split; [exact E|]. split; [exact H|]. split; [exact lev5|discriminate].
Qed.
