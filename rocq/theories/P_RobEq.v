(** Property C89: units, vertical datum and trend of the data of a robust analysis. *)
From Coq Require Import Lia Lra Permutation.
From Coquelicot Require Import Coquelicot.
From Verif Require Import M_Base M_Lib M_Options M_Time M_Slvinit M_Select M_Ellipse M_Robust M_Period M_Conf M_Diag M_Solve M_Recon
  S_Dict S_Options S_Slv S_Order S_Fit S_Recon S_Model S_Errors S_Robust S_RobustErr S_RobustEq
  L_SolveInv L_Example L_Example3 L_Example5 L_Example7 L_Model11 L_Robust L_RobEq L_Units3 L_Example11 L_Example12 L_Example15.
Open Scope R_scope.
Open Scope string_scope.

(** robustfit: data k * y + X d, for any k except 0, give the solution k * b + d; the weights, the leverages and the
    number of passes are unchanged, and the misfits are |k| times as large. *)
Theorem C89_robustfit : forall L X y name tune rcond tol maxit k d r r',
  lstsq_contract L rcond -> length X = length y -> X <> [] -> (forall row, In row X -> length row = length d) -> k <> 0 ->
  robustfit L X y name tune rcond tol maxit = Ok r -> robustfit L X (affine k y (cmatvec X d)) name tune rcond tol maxit = Ok r' ->
  rf_b r' = affine k (rf_b r) d /\ length (rf_b r) = length d /\ rf_w r' = rf_w r /\ rf_leverage r' = rf_leverage r /\
  rf_iterations r' = rf_iterations r /\ rf_rms_resid r' = Rabs k * rf_rms_resid r /\
  rf_ols_b r' = affine k (rf_ols_b r) d /\ rf_ols_rms_resid r' = Rabs k * rf_ols_rms_resid r.
Proof. exact robust_moved. Qed.
Print Assumptions C89_robustfit.

(** A whole robust analysis of k * x + mean + trend, k > 0: the same sample weights, the same constituents, amplitudes times k,
    the same phases and orientations, and the mean and trend accordingly. *)
Theorem C89_scaled : forall L t u v u' v' lat opts sm c c' k be ga mth, 0 < k ->
  let sm' := map (fun x => (fst x, Cplus (Cplus (Cmult (RtoC k) (snd x)) be) (Cmult (RtoC (fst x - c_reftime c)) ga))) sm in
  analysis L t u v lat opts sm c -> analysis L t u' v' lat opts sm' c' -> is2d v = is2d v' ->
  (forall rc, lstsq_contract L rc) -> setting opts "method" mth -> mth <> PStr "ols" ->
  approximate (c_opt c) = false -> (o_notrend (c_opt c) = true -> ga = RtoC 0) ->
  c_weights c' = c_weights c /\ Permutation (c_name c') (c_name c) /\
  (forall r, In r (rows c) -> exists r', In r' (rows c') /\ row_like k eq r r') /\
  (forall z, mean_is c z -> mean_is c' (Cplus (Cmult (RtoC k) z) be)) /\
  (o_notrend (c_opt c) = false -> forall z, slope_is c z -> slope_is c' (Cplus (Cmult (RtoC k) z) ga)).
Proof. exact robust_scaled. Qed.
Print Assumptions C89_scaled.

(** Data of the opposite sign: the same weights and amplitudes, phases half a turn away. *)
Theorem C89_negated : forall L t u v u' v' lat opts sm c c' mth,
  let sm' := map (fun x => (fst x, Copp (snd x))) sm in
  analysis L t u v lat opts sm c -> analysis L t u' v' lat opts sm' c' -> is2d v = is2d v' ->
  (forall rc, lstsq_contract L rc) -> setting opts "method" mth -> mth <> PStr "ols" ->
  approximate (c_opt c) = false ->
  c_weights c' = c_weights c /\ Permutation (c_name c') (c_name c) /\
  (forall r, In r (rows c) -> exists r', In r' (rows c') /\ row_like 1 opposite r r') /\
  (forall z, mean_is c z -> mean_is c' (Copp z)) /\
  (o_notrend (c_opt c) = false -> forall z, slope_is c z -> slope_is c' (Copp z)).
Proof. exact robust_negated. Qed.
Print Assumptions C89_negated.

(** seven samples of M2 with noise, downweighted unequally, and the same with the level raised by 1000 *)
Example C89_example_datum : exists L t u u' lat opts sm c c' r,
  let sm' := map (fun x => (fst x, Cplus (Cplus (Cmult (RtoC 1) (snd x)) (RtoC 1000)) (Cmult (RtoC (fst x - c_reftime c)) (RtoC 0)))) sm in
  analysis L t u None lat opts sm c /\ analysis L t u' None lat opts sm' c' /\ (forall rc, lstsq_contract L rc) /\
  setting opts "method" (PStr "robust") /\ approximate (c_opt c) = false /\ In r (rows c).
Proof.
  destruct (run7 0 (or_introl eq_refl)) as (c & AN & T & N1 & N2 & N3 & IN & RT & NM & LI & WE & ME & r & Hr & _).
  destruct (run7 1000 (or_intror eq_refl)) as (c' & AN' & _).
  exists L7, t7, (u7 0), (u7 1000), (Some 45), opts7, (sm7 0), c, c', r. cbv zeta. split; [exact AN|]. split.
  { refine (eq_ind _ (fun s => analysis L7 t7 _ _ (Some 45) opts7 s c') AN' _ _). unfold sm7, ext7, data7. cbn [map combine fst snd].
    repeat (apply f_equal2; [apply f_equal2; [reflexivity|apply injective_projections; cbn; ring]|]). reflexivity. }
  split; [intros rc; apply levels_contract; [exact cos_sin_one|exact sin_al]|]. split; [left; cbn; tauto|].
  split; [apply approximate_none; exact IN|]. rewrite Hr. now left.
Qed.
(** the same samples with the opposite sign *)
Example C89_example_negated : exists L t u u' lat opts sm c c' r, let sm' := map (fun x => (fst x, Copp (snd x))) sm in
  analysis L t u None lat opts sm c /\ analysis L t u' None lat opts sm' c' /\ (forall rc, lstsq_contract L rc) /\
  setting opts "method" (PStr "robust") /\ approximate (c_opt c) = false /\ In r (rows c).
Proof.
  destruct (run8 1 (or_introl eq_refl)) as (c & AN & T & N1 & N2 & N3 & IN & RT & NM & LI & WE & ME & r & Hr & _).
  destruct (run8 (-1) (or_intror (or_intror eq_refl))) as (c' & AN' & _).
  exists L8, t7, (u8 1), (u8 (-1)), (Some 45), opts7, (sm8 1), c, c', r. cbv zeta. split; [exact AN|]. split.
  { refine (eq_ind _ (fun s => analysis L8 t7 _ _ (Some 45) opts7 s c') AN' _ _). unfold sm8, ext7, data8, data7. cbn [map combine fst snd].
    repeat (apply f_equal2; [apply f_equal2; [reflexivity|apply injective_projections; cbn; ring]|]). reflexivity. }
  split; [intros rc; apply units_contract; [exact cos_sin_one|exact sin_al]|]. split; [left; cbn; tauto|].
  split; [apply approximate_none; exact IN|]. rewrite Hr. now left.
Qed.
(** robustfit itself, factor 100 *)
Example C89_example_robustfit : exists L X y name rcond tol r r' w,
  lstsq_contract L rcond /\ length X = length y /\ X <> [] /\ (forall row, In row X -> length row = 3%nat) /\
  robustfit L X y name None rcond tol 1 = Ok r /\ robustfit L X (affine 100 y (cmatvec X [RtoC 0; RtoC 0; RtoC 0])) name None rcond tol 1 = Ok r' /\
  rf_w r = map Fin w /\ nth 1 w 0 <> nth 2 w 0.
Proof.
  destruct (rob8 x7 y7 cos_sin_one sin_al 1 (or_introl eq_refl)) as (r & F & _ & W).
  destruct (rob8 x7 y7 cos_sin_one sin_al 100 (or_intror (or_introl eq_refl))) as (r' & F' & _).
  apply fit_of_kw in F, F'.
  exists L8, (B7 x7 y7), (data8 x7 1), "cauchy", (PNum 1), (1 / 10 ^ 3), r, r', W7.
  split; [apply units_contract; [exact cos_sin_one|exact sin_al]|]. split; [reflexivity|]. split; [discriminate|]. split; [intros row H; exact (B7_rows _ _ _ H)|].
  split; [exact F|]. split.
  { refine (eq_ind _ (fun z => robustfit L8 _ z _ _ _ _ _ = Ok r') F' _ _). unfold affine, data8, data7, B7, rw, cmatvec. cbn [map combine fst snd].
    unfold cdot. cbn [map combine fst snd csum fold_right]. repeat (apply f_equal2; [apply injective_projections; cbn; ring|]). reflexivity. }
  split; [exact W|]. cbn [W7 nth]. assert (H := wt_12). lra.
Qed.
