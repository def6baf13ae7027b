(** Properties C92 and C93: sums of data, residuals analysed again, and the components of vector data. *)
From Coq Require Import List String Reals Lia Lra Permutation.
From Coquelicot Require Import Coquelicot.
From Verif Require Import M_Base M_Lib M_Options M_Time M_Slvinit M_Select M_Ellipse M_Robust M_Period M_Conf M_Diag M_Solve M_Recon
  S_Dict S_Options S_Slv S_Order S_Fit S_Recon S_Model S_Super
  L_SolveInv L_OptSolve L_Example L_Example5 L_Example7 L_Example8 L_Model7 L_Model11 L_Affine2 L_Example13 L_Example17 L_Super3 L_Super4.
Import ListNotations.
Open Scope R_scope.
Open Scope string_scope.

(** C92.  Two series at the same times and their sum: the result of the sum is the sum of the results ... *)
Theorem C92_sum : forall L t ua va ub vb uc vc lat opts sa sb sc a b c,
  analysis L t ua va lat opts sa a -> analysis L t ub vb lat opts sb b -> analysis L t uc vc lat opts sc c -> is2d va = is2d vc -> is2d vb = is2d vc ->
  summed sa sb sc -> approximate (c_opt c) = false -> lstsq_minimises L -> o_method (c_opt c) = PStr "ols" ->
  identifiable c (map fst sc) -> NoDup (c_name c) ->
  Permutation (c_name a) (c_name c) /\ Permutation (c_name b) (c_name c) /\ sum_of a b c.
Proof. exact top_sum. Qed.
Print Assumptions C92_sum.

(** ... a tide b added to the data of a is added to the result, whatever else the data contain ... *)
Theorem C92_tide_added : forall L t ua va uc vc lat opts sa sb sc a b c,
  analysis L t ua va lat opts sa a -> analysis L t uc vc lat opts sc c -> is2d va = is2d vc -> rival c b -> Forall (fun x => yields b (fst x) (snd x)) sb ->
  summed sa sb sc -> approximate (c_opt c) = false -> lstsq_minimises L -> o_method (c_opt c) = PStr "ols" ->
  identifiable c (map fst sc) -> NoDup (c_name c) ->
  Permutation (c_name a) (c_name c) /\ sum_of a b c.
Proof. exact top_tide_added. Qed.
Print Assumptions C92_tide_added.

(** ... and the residuals analysed with the same options give no tide, no mean and no trend *)
Theorem C92_residuals_again : forall L t u v u' v' lat opts sm sm' c c',
  analysis L t u v lat opts sm c -> analysis L t u' v' lat opts sm' c' -> is2d v = is2d v' ->
  map fst sm' = map fst sm -> residuals c sm (map snd sm') -> approximate (c_opt c) = false -> lstsq_minimises L -> o_method (c_opt c) = PStr "ols" ->
  identifiable c (map fst sm) -> NoDup (c_name c) -> Permutation (c_name c') (c_name c) /\ silent c'.
Proof. exact top_again. Qed.
Print Assumptions C92_residuals_again.

(** currents with noise: two series and their sum *)
Example C92_sum_example : exists L t ua va ub vb uc vc lat opts sa sb sc a b c,
  analysis L t ua va lat opts sa a /\ analysis L t ub vb lat opts sb b /\ analysis L t uc vc lat opts sc c /\ is2d va = is2d vc /\ is2d vb = is2d vc /\
  is2d vc = true /\ summed sa sb sc /\ approximate (c_opt c) = false /\ lstsq_minimises L /\ o_method (c_opt c) = PStr "ols" /\
  identifiable c (map fst sc) /\ NoDup (c_name c) /\ exists r, In r (rows c).
Proof.
  set (p := ((1, 2), ((2, 1), (1, 0), (5, 6))) : q4). set (q := ((3, 1), ((1, 1), (0, 4), (7, 1))) : q4).
  set (l := [p; q; add_q p q]).
  assert (N : true = false -> forall k y, In y (dat k) -> snd y = 0) by discriminate.
  destruct (c_run l true true p (or_introl eq_refl) (fun H => N H p)) as (a & ANa & _).
  destruct (c_run l true true q (or_intror (or_introl eq_refl)) (fun H => N H q)) as (b & ANb & _).
  destruct (c_run l true true (add_q p q) (or_intror (or_intror (or_introl eq_refl))) (fun H => N H (add_q p q))) as (c & AN & T & N1 & N2 & EQ & N3 & RT & NM & LI).
  exists (casesL l), five_t, (cu p), (cv true p), (cu q), (cv true q), (cu (add_q p q)), (cv true (add_q p q)), (Some 45), (cw_opts true), (csm p), (csm q), (csm (add_q p q)), a, b, c.
  split; [exact ANa|]. split; [exact ANb|]. split; [exact AN|]. split; [reflexivity|]. split; [reflexivity|]. split; [reflexivity|]. split; [apply sum_q|].
  split; [apply approximate_none; exact (no_infer _ _ _ _ _ _ _ _ AN ltac:(first [left; cbn; tauto | right; split; [cbn; intros K; repeat (destruct K as [K|K]; [discriminate|]); exact K|cbn; tauto]]))|].
  split; [apply cases_minimises|].
  split; [exact (set_method _ _ _ _ _ _ (an_keys _ _ _ _ _ _ _ _ AN) _ (an_solve _ _ _ _ _ _ _ _ AN) _ ltac:(first [left; cbn; tauto | right; split; [cbn; intros K; repeat (destruct K as [K|K]; [discriminate|]); exact K|cbn; tauto]]))|].
  split; [exact (c_identifiable c N1 N2 N3 RT NM LI)|]. split; [rewrite NM; repeat constructor; cbn; tauto|].
  unfold rows. rewrite NM. eexists. left. reflexivity.
Qed.

(** currents with noise: the tide of the result, the residuals and their analysis *)
Example C92_residuals_example : exists L t u v u' v' lat opts sm sm' st c c',
  analysis L t u v lat opts sm c /\ analysis L t u' v' lat opts sm' c' /\ is2d v = is2d v' /\
  rival c c /\ Forall (fun x => yields c (fst x) (snd x)) st /\ summed sm' st sm /\
  map fst sm' = map fst sm /\ residuals c sm (map snd sm') /\ approximate (c_opt c) = false /\ lstsq_minimises L /\ o_method (c_opt c) = PStr "ols" /\
  identifiable c (map fst sm) /\ NoDup (c_name c) /\ nth 1 (map snd sm') (RtoC 0) <> RtoC 0.
Proof.
  set (q := ((1, 2), ((2, 1), (1, 0), (5, 6))) : q4). set (l := [noise_q q]).
  assert (N : true = false -> forall k y, In y (dat k) -> snd y = 0) by discriminate.
  destruct (c_run (q :: l) true true q (or_introl eq_refl) (fun H => N H q)) as (c & AN & T & N1 & N2 & EQ & N3 & RT & NM & LI).
  destruct (c_run (q :: l) true true (noise_q q) (or_intror (or_introl eq_refl)) (fun H => N H (noise_q q))) as (c' & AN' & _).
  assert (NI := no_infer _ _ _ _ _ _ _ _ AN ltac:(first [left; cbn; tauto | right; split; [cbn; intros K; repeat (destruct K as [K|K]; [discriminate|]); exact K|cbn; tauto]])).
  assert (NA := approximate_none _ NI).
  assert (OLS : o_method (c_opt c) = PStr "ols")
    by exact (set_method _ _ _ _ _ _ (an_keys _ _ _ _ _ _ _ _ AN) _ (an_solve _ _ _ _ _ _ _ _ AN) _ ltac:(first [left; cbn; tauto | right; split; [cbn; intros K; repeat (destruct K as [K|K]; [discriminate|]); exact K|cbn; tauto]])).
  assert (F := first_fits _ _ _ _ AN T NA OLS).
  assert (SU : summed (csm (noise_q q)) (csm (tide_q q)) (csm q)) by (rewrite (split_q q); apply sum_q).
  exists (casesL (q :: l)), five_t, (cu q), (cv true q), (cu (noise_q q)), (cv true (noise_q q)), (Some 45), (cw_opts true), (csm q), (csm (noise_q q)), (csm (tide_q q)), c, c'.
  split; [exact AN|]. split; [exact AN'|]. split; [reflexivity|].
  split; [exact (self_rival _ _ _ _ _ _ _ _ AN NI)|]. split; [exact F|]. split; [exact SU|]. split; [reflexivity|].
  split; [exact (residuals_of_parts _ _ _ _ SU F)|]. split; [exact NA|]. split; [apply cases_minimises|]. split; [exact OLS|].
  split; [exact (c_identifiable c N1 N2 N3 RT NM LI)|]. split; [rewrite NM; repeat constructor; cbn; tauto|].
  apply noise_q_1. intros X. apply (f_equal fst) in X. cbn in X. lra.
Qed.

(** C93.  Currents: the eastward and northward series analysed alone as scalars give the oscillations that trace the ellipse
    of the vector analysis, its means, trends and reconstruction. *)
Theorem C93_components : forall L t u v lat opts sm a b c,
  analysis L t u (Some v) lat opts sm c -> analysis L t u None lat opts (east sm) a -> analysis L t v None lat opts (north sm) b ->
  lstsq_minimises L -> setting opts "method" (PStr "ols") -> setting opts "infer" PNone -> identifiable c (map fst sm) -> NoDup (c_name c) ->
  Permutation (c_name a) (c_name c) /\ Permutation (c_name b) (c_name c) /\
  (forall r ru rv, In r (rows c) -> In ru (rows a) -> In rv (rows b) -> w_name ru = w_name r -> w_name rv = w_name r -> traced_by r ru rv) /\
  c_umean c = c_mean a /\ c_vmean c = c_mean b /\ (o_notrend (c_opt c) = false -> c_uslope c = c_slope a /\ c_vslope c = c_slope b) /\
  (forall x, recon_u c x = recon_u a x /\ recon_v c x = recon_u b x).
Proof. exact top_components. Qed.
Print Assumptions C93_components.

Example C93_example : exists L t u v lat opts sm a b c,
  analysis L t u (Some v) lat opts sm c /\ analysis L t u None lat opts (east sm) a /\ analysis L t v None lat opts (north sm) b /\
  lstsq_minimises L /\ setting opts "method" (PStr "ols") /\ setting opts "infer" PNone /\ identifiable c (map fst sm) /\ NoDup (c_name c) /\
  exists r, In r (rows c).
Proof.
  set (q := ((1, 2), ((2, 1), (1, 0), (5, 6))) : q4). set (l := [q; east_q q; north_q q]).
  assert (N : true = false -> forall k y, In y (dat k) -> snd y = 0) by discriminate.
  destruct (c_run l true true q (or_introl eq_refl) (fun H => N H q)) as (c & AN & T & N1 & N2 & EQ & N3 & RT & NM & LI).
  destruct (c_run l true false (east_q q) (or_intror (or_introl eq_refl)) (fun _ => east_real q)) as (a & ANa & _).
  destruct (c_run l true false (north_q q) (or_intror (or_intror (or_introl eq_refl))) (fun _ => north_real q)) as (b & ANb & _).
  exists (casesL l), five_t, (cu q), (cu (north_q q)), (Some 45), (cw_opts true), (csm q), a, b, c.
  split; [exact (eq_ind _ (fun v => analysis (casesL l) five_t (cu q) v (Some 45) (cw_opts true) (csm q) c) AN _ (cv_u q))|].
  split; [exact (eq_ind _ (fun u => analysis (casesL l) five_t u None (Some 45) (cw_opts true) (east (csm q)) a)
            (eq_ind _ (fun s => analysis (casesL l) five_t (cu (east_q q)) None (Some 45) (cw_opts true) s a) ANa _ (east_sm q)) _ (cu_u q))|].
  split; [exact (eq_ind _ (fun s => analysis (casesL l) five_t (cu (north_q q)) None (Some 45) (cw_opts true) s b) ANb _ (north_sm q))|].
  split; [apply cases_minimises|].
  repeat (split; [first [left; cbn; tauto | right; split; [cbn; intros K; repeat (destruct K as [K|K]; [discriminate|]); exact K|cbn; tauto]]|]).
  split; [exact (c_identifiable c N1 N2 N3 RT NM LI)|]. split; [rewrite NM; repeat constructor; cbn; tauto|].
  unfold rows. rewrite NM. eexists. left. reflexivity.
Qed.
