(** Properties C105 and C106: changes in the data, and what depends on random numbers. *)
From Coq Require Import List String Reals Lia Lra Permutation.
From Coquelicot Require Import Coquelicot.
From Verif Require Import M_Base M_Bunch M_Lib M_Options M_Time M_Slvinit M_Select M_Ellipse M_Robust M_Period M_Conf M_Diag M_Solve M_Recon
  S_Dict S_Options S_Slv S_Order S_Fit S_Recon S_Model S_Choice S_Output S_Stable L_SolveInv L_OptSolve L_Model7 L_Model11 L_Affine2 L_Options L_Stable L_Chance
  L_Example L_Example3 L_Example4 L_Example5 L_Example7 L_Example8 L_Example13 L_Example17 L_Example26.
Import ListNotations.
Open Scope R_scope.
Open Scope string_scope.

(** C105.  Two ordinary least-squares analyses of different data at the same times: what changes in the data splits into what
    changes in the predictions and what changes in the residuals, and the squares add up; ... *)
Theorem C105_split : forall L t u v u' v' lat opts sm sm' c c', analysis L t u v lat opts sm c -> analysis L t u' v' lat opts sm' c' ->
  is2d v' = is2d v -> map fst sm' = map fst sm -> approximate (c_opt c) = false -> lstsq_minimises L -> o_method (c_opt c) = PStr "ols" ->
  forall L1 L2, exists zs zs', returns L1 c (map fst sm) zs /\ returns L2 c' (map fst sm) zs' /\
  norm2 (csub (map snd sm') (map snd sm)) = norm2 (csub zs' zs) + norm2 (csub (csub (map snd sm') zs') (csub (map snd sm) zs)).
Proof. exact data_split. Qed.
Print Assumptions C105_split.

(** ... so predictions at the times of the samples change by no more than the data; ... *)
Theorem C105_contraction : forall L t u v u' v' lat opts sm sm' c c', analysis L t u v lat opts sm c -> analysis L t u' v' lat opts sm' c' ->
  is2d v' = is2d v -> map fst sm' = map fst sm -> approximate (c_opt c) = false -> lstsq_minimises L -> o_method (c_opt c) = PStr "ols" ->
  forall L1 L2 zs zs', returns L1 c (map fst sm) zs -> returns L2 c' (map fst sm) zs' ->
  norm2 (csub zs' zs) <= norm2 (csub (map snd sm') (map snd sm)).
Proof. exact data_contraction. Qed.
Print Assumptions C105_contraction.

(** ... and when one sample changes, the prediction at its time follows it, never beyond it, and every other prediction moves by
    at most half of the change. *)
Theorem C105_one_sample : forall L t u v u' v' lat opts sm sm' c c', analysis L t u v lat opts sm c -> analysis L t u' v' lat opts sm' c' ->
  is2d v' = is2d v -> approximate (c_opt c) = false -> lstsq_minimises L -> o_method (c_opt c) = PStr "ols" ->
  forall j delta, one_changed sm sm' j delta -> forall L1 L2 zs zs', returns L1 c (map fst sm) zs -> returns L2 c' (map fst sm) zs' ->
  let move i := Cminus (nth i zs' (RtoC 0)) (nth i zs (RtoC 0)) in
  Cmod (move j) ^ 2 <= inner (move j) delta <= Cmod delta ^ 2 /\ forall i, (i < length sm)%nat -> i <> j -> Cmod (move i) <= Cmod delta / 2.
Proof. exact one_sample. Qed.
Print Assumptions C105_one_sample.

(** M2 currents from four samples with noise, the second sample changed *)
Example C105_example : exists L t u v u' v' lat opts sm sm' c c' delta, analysis L t u v lat opts sm c /\ analysis L t u' v' lat opts sm' c' /\
  is2d v' = is2d v /\ is2d v = true /\ map fst sm' = map fst sm /\ approximate (c_opt c) = false /\ lstsq_minimises L /\ o_method (c_opt c) = PStr "ols" /\
  one_changed sm sm' 1 delta /\ delta <> RtoC 0 /\ exists zs zs', returns L c (map fst sm) zs /\ returns L c' (map fst sm) zs'.
Proof.
  set (p := ((1, 2), ((2, 1), (1, 0), (5, 6))) : q4). set (l := [p; add_q p bump_q]).
  assert (N : true = false -> forall k y, In y (dat k) -> snd y = 0) by discriminate.
  destruct (c_run l true true p (or_introl eq_refl) (fun H => N H p)) as (c & AN & _).
  destruct (c_run l true true (add_q p bump_q) (or_intror (or_introl eq_refl)) (fun H => N H (add_q p bump_q))) as (c' & AN' & _).
  assert (NA : approximate (c_opt c) = false) by (apply approximate_none; exact (no_infer _ _ _ _ _ _ _ _ AN ltac:(first [left; cbn; tauto | right; split; [cbn; intros K; repeat (destruct K as [K|K]; [discriminate|]); exact K|cbn; tauto]]))).
  assert (OLS : o_method (c_opt c) = PStr "ols") by exact (set_method _ _ _ _ _ _ (an_keys _ _ _ _ _ _ _ _ AN) _ (an_solve _ _ _ _ _ _ _ _ AN) _ ltac:(first [left; cbn; tauto | right; split; [cbn; intros K; repeat (destruct K as [K|K]; [discriminate|]); exact K|cbn; tauto]])).
  exists (casesL l), five_t, (cu p), (cv true p), (cu (add_q p bump_q)), (cv true (add_q p bump_q)), (Some 45), (cw_opts true), (csm p), (csm (add_q p bump_q)), c, c', (RtoC bump_d).
  split; [exact AN|]. split; [exact AN'|]. split; [reflexivity|]. split; [reflexivity|]. split; [reflexivity|]. split; [exact NA|]. split; [apply cases_minimises|].
  split; [exact OLS|]. split; [apply bump_one|]. split; [intros E; apply (f_equal fst) in E; exact (bump_nz E)|].
  destruct (data_split _ _ _ _ _ _ _ _ _ _ _ _ AN AN' eq_refl eq_refl NA (cases_minimises l) OLS (casesL l) (casesL l)) as (zs & zs' & R1 & R2 & _). eauto.
Qed.

(** C106.  Unless Monte-Carlo intervals are asked for, solve does not use random numbers; ... *)
Theorem C106_no_chance : forall L f t u v lat opts x, unique_keys opts -> setting opts "conf_int" x -> x <> PStr "MC" ->
  solve (with_mvn L f) t u v lat opts = solve L t u v lat opts.
Proof. exact solve_mvn. Qed.
Print Assumptions C106_no_chance.

(** ... with them, constituents, amplitudes, phases, ellipses, means, trends and weights are the same whatever the random numbers, ... *)
Theorem C106_same_but_intervals : forall L f t u v lat opts opts' sm sm' c c', analysis L t u v lat opts sm c ->
  analysis (with_mvn L f) t u v lat opts' sm' c' -> agree opts opts' fit_options -> same_but_intervals c c'.
Proof. exact chance_options. Qed.
Print Assumptions C106_same_but_intervals.

(** ... as are the predictions that reconstruct returns from all constituents, ... *)
Theorem C106_predictions : forall L f t u v lat opts opts' sm sm' c c', analysis L t u v lat opts sm c ->
  analysis (with_mvn L f) t u v lat opts' sm' c' -> agree opts opts' fit_options -> predict_alike c c'.
Proof. exact chance_alike. Qed.
Print Assumptions C106_predictions.

(** ... and reconstruct itself uses no routine of numpy or scipy but the parsing of dates. *)
Theorem C106_reconstruct : forall L L' t nd c e k mS mP, l_parse L' = l_parse L -> reconstruct L' t nd c e k mS mP = reconstruct L t nd c e k mS mP.
Proof. exact recon_lib. Qed.
Print Assumptions C106_reconstruct.

(** M2 currents from four samples with noise, Monte-Carlo intervals from two different sequences of random numbers *)
Example C106_example : exists L f t u v lat opts sm c c', analysis L t u v lat opts sm c /\ analysis (with_mvn L f) t u v lat opts sm c' /\ is2d v = true /\
  agree opts opts fit_options /\ setting opts "conf_int" (PStr "MC") /\ f <> l_mvn L.
Proof.
  destruct (n_run true true (1, 2) (2, 1) (1, 0) (5, 6) ltac:(discriminate)) as (c & AN & _).
  destruct (s_run true true (1, 2) (2, 1) (1, 0) (5, 6) 1 ltac:(discriminate)) as (c' & AN' & _).
  do 8 eexists. exists c, c'. split; [exact AN|]. split; [exact AN'|]. split; [reflexivity|]. split.
  { intros k Hk. exists (opt_value (lin_opts true) k). cbn in Hk. repeat (destruct Hk as [<-|Hk]; [split; first [left; cbn; tauto | right; split; [cbn; intros K; repeat (destruct K as [K|K]; [discriminate|]); exact K|cbn; tauto]]|]). destruct Hk. }
  split; [left; cbn; tauto|]. intros E. apply (f_equal (fun g => g 0%nat [0] [] 1%nat)) in E. cbn in E. injection E as E. lra.
Qed.
Example C106_example_linear : exists L f t u v lat opts c, unique_keys opts /\ setting opts "conf_int" (PStr "linear") /\ f <> l_mvn L /\
  solve L t u v lat opts = Ok c /\ solve (with_mvn L f) t u v lat opts = Ok c.
Proof.
  destruct (n_run false true (1, 2) (2, 1) (1, 0) (5, 6) ltac:(discriminate)) as (c & AN & _).
  exists (nL (1, 2) (2, 1) (1, 0) (5, 6)), (fun _ _ _ _ => Err LinAlgError). do 5 eexists. exists c.
  assert (S : setting (lin_opts false) "conf_int" (PStr "linear")) by (left; cbn; tauto).
  split; [exact (an_keys _ _ _ _ _ _ _ _ AN)|]. split; [exact S|].
  split; [intros E; apply (f_equal (fun g => g 0%nat [0] [] 1%nat)) in E; cbn in E; discriminate|]. split; [exact (an_solve _ _ _ _ _ _ _ _ AN)|].
  rewrite (solve_mvn _ _ _ _ _ _ _ _ (an_keys _ _ _ _ _ _ _ _ AN) S); [exact (an_solve _ _ _ _ _ _ _ _ AN)|discriminate].
Qed.
