(** Properties C35-C41: the fitted model. *)
From Coq Require Import Lra Permutation.
From Verif Require Import M_Base M_Lib M_Time M_Options M_Slvinit M_Harmonics M_Select M_Ellipse M_Conf M_Diag M_Solve M_Recon
  S_Dict S_Options S_Basis S_Order S_Select S_Fit S_Ellipse S_Slv S_Recon S_Model
  L_SolveInv L_Example L_Model2 L_Model11 L_Model12 L_Model14 L_Model15 L_Model16 L_Example3 L_Example4 L_Example5 L_Example6.
Open Scope R_scope.
Open Scope string_scope.

(** C35.  Reconstruction at the sample times is the model fit: as values ... *)
Theorem C35_model_fit : forall L t u v lat opts sm c, analysis L t u v lat opts sm c -> approximate (c_opt c) = false ->
  exists si la s B xraw m W, lat = Some la /\ slvinit (l_parse L) t u v lat (o_epoch (c_opt c)) = Ok si /\
    ut_cnstitsel (si_tref si) (xdiv (Fin (o_rmin (c_opt c))) (Fin (24 * si_lor si))) (o_cnstit (c_opt c)) (o_infer (c_opt c)) = Ok s /\
    fit L (si_t si) (si_u si) (si_v si) (si_tref si) (si_lor si) la (c_opt c) s = Ok (B, xraw, m, W) /\
    Forall2 (fun x z => yields c (fst x) z) sm (model_fit (o_twodim (c_opt c)) B m).
Proof. exact top_model. Qed.
Print Assumptions C35_model_fit.

(** ... and as the output of reconstruct *)
Theorem C35_reconstruct : forall L t u v lat opts sm c, analysis L t u v lat opts sm c -> approximate (c_opt c) = false ->
  exists si la s B xraw m W, lat = Some la /\ slvinit (l_parse L) t u v lat (o_epoch (c_opt c)) = Ok si /\
    ut_cnstitsel (si_tref si) (xdiv (Fin (o_rmin (c_opt c))) (Fin (24 * si_lor si))) (o_cnstit (c_opt c)) (o_infer (c_opt c)) = Ok s /\
    fit L (si_t si) (si_u si) (si_v si) (si_tref si) (si_lor si) la (c_opt c) s = Ok (B, xraw, m, W) /\
    exists o, reconstruct L (TNum (map Fin (map fst sm))) 1 c (PStr "python") CNone 0 0 = Ok o /\
      ro_series o = if o_twodim (c_opt c)
        then Vector (map (fun z => Fin (fst z)) (model_fit true B m)) (map (fun z => Fin (snd z)) (model_fit true B m))
        else Scalar (map (fun z => Fin (fst z)) (model_fit false B m)).
Proof. exact top_reconstruct. Qed.
Print Assumptions C35_reconstruct.

(** M2 with amplitude 2 |1+2i| and mean 3 at four times; S2 inferred from M2 *)
Example C35_example :
  (exists c, analysis (tryL sols) ex_t (m2_u (1, 2) 3) None (Some 45) off_opts (m2_sm (1, 2) 3) c /\ approximate (c_opt c) = false) /\
  (exists c, analysis inf_L ex_t (inf_u false) None (Some 45) (inf_opts false) (inf_sm false) c /\ approximate (c_opt c) = false /\
     Permutation (c_name c) ["M2"; "S2"]).
Proof.
  split.
  - destruct (m2_run sols (1, 2) 3 ltac:(now left) sols_len) as [c Mf]. exists c. split; [apply Mf|]. apply approximate_none, Mf.
  - destruct (inf_run false) as [c Mf]. exists c. split; [apply Mf|]. split; [|apply Mf]. unfold approximate. rewrite (if_in _ _ Mf). reflexivity.
Qed.

(** C36.  Least squares: no rival coefficients fit better *)
Theorem C36_least_squares : forall L t u v lat opts sm c c', analysis L t u v lat opts sm c -> approximate (c_opt c) = false ->
  lstsq_minimises L -> o_method (c_opt c) = PStr "ols" -> rival c c' ->
  exists d d', misfit c sm d /\ misfit c' sm d' /\ d <= d'.
Proof. exact top_optimal. Qed.
Print Assumptions C36_least_squares.

Example C36_example : exists c c', analysis (tryL sols) ex_t (m2_u (1, 2) 3) None (Some 45) off_opts (m2_sm (1, 2) 3) c /\
  approximate (c_opt c) = false /\ lstsq_minimises (tryL sols) /\ o_method (c_opt c) = PStr "ols" /\ rival c c' /\
  c_mean c' <> c_mean c.
Proof.
  destruct (m2_run sols (1, 2) 3 ltac:(now left) sols_len) as [c Mf]. exists c. destruct (m2_shifted _ _ _ _ Mf) as (c' & R' & N').
  exists c'. split; [apply Mf|]. split; [apply approximate_none, Mf|]. split; [apply try_minimises|]. split; [apply Mf|]. auto.
Qed.

(** C37.  A tide is reproduced exactly ... *)
Theorem C37_reproduced : forall L t u v lat opts sm c c0, analysis L t u v lat opts sm c -> approximate (c_opt c) = false ->
  lstsq_minimises L -> o_method (c_opt c) = PStr "ols" -> rival c c0 ->
  Forall (fun x => yields c0 (fst x) (snd x)) sm -> Forall (fun x => yields c (fst x) (snd x)) sm.
Proof. exact top_exact. Qed.
Print Assumptions C37_reproduced.

(** ... and recovered, when the times tell the coefficients apart *)
Theorem C37_recovered : forall L t u v lat opts sm c c0, analysis L t u v lat opts sm c -> approximate (c_opt c) = false ->
  lstsq_minimises L -> o_method (c_opt c) = PStr "ols" -> rival c c0 ->
  Forall (fun x => yields c0 (fst x) (snd x)) sm -> identifiable c (map fst sm) -> NoDup (c_name c) ->
  (forall x, recon_u c x = recon_u c0 x /\ (o_twodim (c_opt c) = true -> recon_v c x = recon_v c0 x)) /\
  (forall z, mean_is c0 z -> mean_is c z) /\
  (o_notrend (c_opt c) = false -> forall z, slope_is c0 z -> slope_is c z) /\
  (forall r0, In r0 (rows c0) -> row_ranges r0 -> exists r, In r (rows c) /\ row_like 1 eq r0 r).
Proof. exact top_recover. Qed.
Print Assumptions C37_recovered.

Example C37_example : exists c, analysis (tryL sols) ex_t (m2_u (1, 2) 3) None (Some 45) off_opts (m2_sm (1, 2) 3) c /\
  approximate (c_opt c) = false /\ lstsq_minimises (tryL sols) /\ o_method (c_opt c) = PStr "ols" /\ rival c c /\
  Forall (fun x => yields c (fst x) (snd x)) (m2_sm (1, 2) 3) /\ identifiable c (map fst (m2_sm (1, 2) 3)) /\ NoDup (c_name c).
Proof.
  destruct (m2_run sols (1, 2) 3 ltac:(now left) sols_len) as [c Mf]. exists c.
  assert (NA := approximate_none _ (mf_in _ _ _ _ Mf)).
  split; [apply Mf|]. split; [exact NA|]. split; [apply try_minimises|]. split; [apply Mf|].
  split; [exact (m2_rival _ _ _ _ Mf)|]. split; [exact (try_fits _ _ _ _ _ _ _ _ (mf_an _ _ _ _ Mf) NA (mf_me _ _ _ _ Mf))|].
  split; [rewrite m2_ext; exact (m2_identifiable _ _ _ _ Mf)|]. rewrite (mf_name _ _ _ _ Mf). repeat constructor. cbn. tauto.
Qed.

(** C38.  Residuals are orthogonal to the model *)
Theorem C38_residuals : forall L t u v lat opts sm c, analysis L t u v lat opts sm c -> approximate (c_opt c) = false ->
  lstsq_minimises L -> o_method (c_opt c) = PStr "ols" ->
  exists rs, residuals c sm rs /\ uncorrelated (fun _ => 1) sm rs /\
    (o_notrend (c_opt c) = false -> uncorrelated (fun x => x - c_reftime c) sm rs) /\
    (o_infer (c_opt c) = None -> forall i, In i (c_lind c) -> uncorrelated (wave_cos c i) sm rs /\ uncorrelated (wave_sin c i) sm rs) /\
    (forall c', rival c c' -> exists zs, Forall2 (fun x z => yields c' (fst x) z) sm zs /\
       rsum (map (fun p => fst (fst p) * fst (snd p) + snd (fst p) * snd (snd p)) (combine rs zs)) = 0).
Proof. exact top_residuals. Qed.
Print Assumptions C38_residuals.

(** the covariance of the coefficients is scaled with misfit / (samples - parameters) *)
Theorem C38_variance : forall L t u v lat opts sm c d, analysis L t u v lat opts sm c -> approximate (c_opt c) = false ->
  lstsq_minimises L -> o_method (c_opt c) = PStr "ols" -> misfit c sm d ->
  exists si la s B xraw m W, lat = Some la /\ slvinit (l_parse L) t u v lat (o_epoch (c_opt c)) = Ok si /\
    ut_cnstitsel (si_tref si) (xdiv (Fin (o_rmin (c_opt c))) (Fin (24 * si_lor si))) (o_cnstit (c_opt c)) (o_infer (c_opt c)) = Ok s /\
    fit L (si_t si) (si_u si) (si_v si) (si_tref si) (si_lor si) la (c_opt c) s = Ok (B, xraw, m, W) /\
    forall nm gc gp, gammas L B nm W xraw (model_fit (o_twodim (c_opt c)) B m) = Ok (Some (gc, gp)) ->
      exists iC, l_inv L (gram (cconj_mat B) B (map (fun _ => 1) sm) nm) = Ok iC /\
        gc = map (map (fun z => Cmult z (RtoC (d / (INR (length sm) - INR nm))))) iC.
Proof. exact top_variance. Qed.
Print Assumptions C38_variance.

Example C38_example : exists c, analysis (tryL sols) ex_t (m2_u (1, 2) 3) None (Some 45) off_opts (m2_sm (1, 2) 3) c /\
  approximate (c_opt c) = false /\ lstsq_minimises (tryL sols) /\ o_method (c_opt c) = PStr "ols" /\ o_infer (c_opt c) = None /\
  In 47%nat (c_lind c) /\ exists d, misfit c (m2_sm (1, 2) 3) d.
Proof.
  destruct (m2_run sols (1, 2) 3 ltac:(now left) sols_len) as [c Mf]. exists c.
  assert (NA := approximate_none _ (mf_in _ _ _ _ Mf)).
  split; [apply Mf|]. split; [exact NA|]. split; [apply try_minimises|]. split; [apply Mf|]. split; [apply Mf|].
  split; [rewrite (mf_lind _ _ _ _ Mf); now left|].
  destruct (top_optimal _ _ _ _ _ _ _ _ _ (mf_an _ _ _ _ Mf) NA (try_minimises _) (mf_me _ _ _ _ Mf) (m2_rival _ _ _ _ Mf)) as (d & _ & Hd & _).
  exists d. exact Hd.
Qed.

(** C39.  Data multiplied by k > 0, plus a constant, plus a linear trend *)
Theorem C39_scaled_and_shifted : forall L t u v u' v' lat opts sm c c' k be ga, 0 < k ->
  let sm' := map (fun x => (fst x, Cplus (Cplus (Cmult (RtoC k) (snd x)) be) (Cmult (RtoC (fst x - c_reftime c)) ga))) sm in
  analysis L t u v lat opts sm c -> analysis L t u' v' lat opts sm' c' -> is2d v = is2d v' ->
  approximate (c_opt c) = false -> lstsq_minimises L -> o_method (c_opt c) = PStr "ols" ->
  identifiable c (map fst sm) -> NoDup (c_name c) -> (o_notrend (c_opt c) = true -> ga = RtoC 0) ->
  Permutation (c_name c') (c_name c) /\
  (forall r, In r (rows c) -> exists r', In r' (rows c') /\ row_like k eq r r') /\
  (forall z, mean_is c z -> mean_is c' (Cplus (Cmult (RtoC k) z) be)) /\
  (o_notrend (c_opt c) = false -> forall z, slope_is c z -> slope_is c' (Cplus (Cmult (RtoC k) z) ga)).
Proof. exact top_scaled. Qed.
Print Assumptions C39_scaled_and_shifted.

(** negated data: phases shift by 180 degrees *)
Theorem C39_negated : forall L t u v u' v' lat opts sm c c',
  let sm' := map (fun x => (fst x, Copp (snd x))) sm in
  analysis L t u v lat opts sm c -> analysis L t u' v' lat opts sm' c' -> is2d v = is2d v' ->
  approximate (c_opt c) = false -> lstsq_minimises L -> o_method (c_opt c) = PStr "ols" ->
  identifiable c (map fst sm) -> NoDup (c_name c) ->
  Permutation (c_name c') (c_name c) /\
  (forall r, In r (rows c) -> exists r', In r' (rows c') /\ row_like 1 opposite r r') /\
  (forall z, mean_is c z -> mean_is c' (Copp z)) /\
  (o_notrend (c_opt c) = false -> forall z, slope_is c z -> slope_is c' (Copp z)).
Proof. exact top_negated. Qed.
Print Assumptions C39_negated.

(** in general (for vectors: rotation and scaling of the currents) every rotary component is multiplied by al *)
Theorem C39_linear : forall L t u v u' v' lat opts sm c c' al be ga,
  let sm' := map (fun x => (fst x, Cplus (Cplus (Cmult al (snd x)) be) (Cmult (RtoC (fst x - c_reftime c)) ga))) sm in
  analysis L t u v lat opts sm c -> analysis L t u' v' lat opts sm' c' -> is2d v = is2d v' ->
  approximate (c_opt c) = false -> lstsq_minimises L -> o_method (c_opt c) = PStr "ols" ->
  identifiable c (map fst sm) -> NoDup (c_name c) ->
  (o_twodim (c_opt c) = false -> snd al = 0) -> (o_notrend (c_opt c) = true -> ga = RtoC 0) ->
  Permutation (c_name c') (c_name c) /\
  (forall r, In r (rows c) -> exists r', In r' (rows c') /\ w_name r' = w_name r /\ w_lind r' = w_lind r /\ multiple al al r' r) /\
  (forall z, mean_is c z -> mean_is c' (Cplus (Cmult al z) be)) /\
  (o_notrend (c_opt c) = false -> forall z, slope_is c z -> slope_is c' (Cplus (Cmult al z) ga)).
Proof. exact top_linear. Qed.
Print Assumptions C39_linear.

Example C39_example : exists c c' c'',
  analysis (tryL sols) ex_t (m2_u (1, 2) 3) None (Some 45) off_opts (m2_sm (1, 2) 3) c /\
  analysis (tryL sols) ex_t (m2_u (Cmult (RtoC 2) (1, 2)) (2 * 3 + 1)) None (Some 45) off_opts
    (map (fun x => (fst x, Cplus (Cplus (Cmult (RtoC 2) (snd x)) (RtoC 1)) (Cmult (RtoC (fst x - c_reftime c)) (RtoC 0)))) (m2_sm (1, 2) 3)) c' /\
  analysis (tryL sols) ex_t (m2_u (Copp (1, 2)) (- 3)) None (Some 45) off_opts (map (fun x => (fst x, Copp (snd x))) (m2_sm (1, 2) 3)) c'' /\
  approximate (c_opt c) = false /\ lstsq_minimises (tryL sols) /\ o_method (c_opt c) = PStr "ols" /\
  identifiable c (map fst (m2_sm (1, 2) 3)) /\ NoDup (c_name c).
Proof.
  destruct (m2_run sols (1, 2) 3 ltac:(now left) sols_len) as [c Mf].
  destruct (m2_run sols (Cmult (RtoC 2) (1, 2)) (2 * 3 + 1) ltac:(right; now left) sols_len) as [c' Mf'].
  destruct (m2_run sols (Copp (1, 2)) (- 3) ltac:(right; right; now left) sols_len) as [c'' Mf''].
  exists c, c', c''. split; [apply Mf|]. split; [rewrite <- scaled_sm; apply Mf'|]. split; [rewrite <- negated_sm; apply Mf''|].
  split; [apply approximate_none, Mf|]. split; [apply try_minimises|]. split; [apply Mf|].
  split; [rewrite m2_ext; exact (m2_identifiable _ _ _ _ Mf)|]. rewrite (mf_name _ _ _ _ Mf). repeat constructor. cbn. tauto.
Qed.

(** C40.  Inferred constituents: rotary components (both cases) ... *)
Theorem C40_rotary : forall L t u v lat opts sm c, analysis L t u v lat opts sm c -> NoDup (c_name c) ->
  ties c /\ forall inf j i r rp rm, o_infer (c_opt c) = Some inf -> request_at inf (o_twodim (c_opt c)) j (i, r, rp, rm) ->
    exists a b, In a (rows c) /\ In b (rows c) /\ w_name a = Some i /\ w_name b = Some r /\ multiple rp rm a b.
Proof. exact top_ties. Qed.
Print Assumptions C40_rotary.

(** ... amplitude and phase of scalars *)
Theorem C40_amplitude_phase : forall L t u v lat opts sm c inf j i r a o, analysis L t u v lat opts sm c -> NoDup (c_name c) ->
  o_twodim (c_opt c) = false -> o_infer (c_opt c) = Some inf ->
  nth_error (inf_inferred inf) j = Some i -> nth_error (inf_reference inf) j = Some r ->
  nth_error (inf_amp inf) j = Some a -> nth_error (inf_off inf) j = Some o ->
  exists wi wr Ai gi Ar gr, In wi (rows c) /\ In wr (rows c) /\ w_name wi = Some i /\ w_name wr = Some r /\
    w_A wi = Some (Some Ai) /\ w_g wi = Some gi /\ w_A wr = Some (Some Ar) /\ w_g wr = Some gr /\
    Ai = Rabs a * Ar /\ (0 < a -> Ar <> 0 -> same_angle 360 gi (gr - o)) /\ (a < 0 -> Ar <> 0 -> same_angle 360 gi (gr - o + 180)).
Proof. exact top_inferred. Qed.
Print Assumptions C40_amplitude_phase.

Example C40_example : exists c, analysis inf_L ex_t (inf_u false) None (Some 45) (inf_opts false) (inf_sm false) c /\ NoDup (c_name c) /\
  o_twodim (c_opt c) = false /\ o_infer (c_opt c) = Some (m2_inf false) /\
  nth_error (inf_inferred (m2_inf false)) 0 = Some "S2" /\ nth_error (inf_reference (m2_inf false)) 0 = Some "M2" /\
  nth_error (inf_amp (m2_inf false)) 0 = Some (/ 2) /\ nth_error (inf_off (m2_inf false)) 0 = Some 0.
Proof.
  destruct (inf_run false) as [c If]. exists c. split; [apply If|]. split; [exact (inf_nodup _ _ If)|]. split; [apply If|]. split; [apply If|]. repeat split.
Qed.

(** C41.  Exact inference: the reconstruction from the reported coefficients, inferred ones included, is the fit *)
Theorem C41_exact : forall L t u v lat opts sm c inf, analysis L t u v lat opts sm c -> o_infer (c_opt c) = Some inf -> inf_approx inf = false ->
  exists si la s B xraw m W, lat = Some la /\ slvinit (l_parse L) t u v lat (o_epoch (c_opt c)) = Ok si /\
    ut_cnstitsel (si_tref si) (xdiv (Fin (o_rmin (c_opt c))) (Fin (24 * si_lor si))) (o_cnstit (c_opt c)) (Some inf) = Ok s /\
    fit L (si_t si) (si_u si) (si_v si) (si_tref si) (si_lor si) la (c_opt c) s = Ok (B, xraw, m, W) /\
    Forall2 (fun x z => yields c (fst x) z) sm (model_fit (o_twodim (c_opt c)) B m).
Proof. exact exact_inference. Qed.
Print Assumptions C41_exact.

(** approximate inference: what is fitted is the sum over the constituents that are not inferred *)
Theorem C41_approximate : forall L t u v lat opts sm c inf, analysis L t u v lat opts sm c -> NoDup (c_name c) ->
  o_infer (c_opt c) = Some inf -> inf_approx inf = true ->
  exists si la s B xraw m W, lat = Some la /\ slvinit (l_parse L) t u v lat (o_epoch (c_opt c)) = Ok si /\
    ut_cnstitsel (si_tref si) (xdiv (Fin (o_rmin (c_opt c))) (Fin (24 * si_lor si))) (o_cnstit (c_opt c)) (o_infer (c_opt c)) = Ok s /\
    fit L (si_t si) (si_u si) (si_v si) (si_tref si) (si_lor si) la (c_opt c) s = Ok (B, xraw, m, W) /\
    Forall2 (fun x z => yields_only c (not_inferred c) (fst x) z) sm (model_fit (o_twodim (c_opt c)) B m).
Proof. exact top_approx. Qed.
Print Assumptions C41_approximate.

Theorem C41_approximate_residuals : forall L t u v lat opts sm c inf, analysis L t u v lat opts sm c -> NoDup (c_name c) ->
  o_infer (c_opt c) = Some inf -> inf_approx inf = true -> lstsq_minimises L -> o_method (c_opt c) = PStr "ols" ->
  exists rs, residuals_only c (not_inferred c) sm rs /\ uncorrelated (fun _ => 1) sm rs /\
    (o_notrend (c_opt c) = false -> uncorrelated (fun x => x - c_reftime c) sm rs) /\
    (forall r n i, In r (rows c) -> w_name r = Some n -> In n (not_inferred c) -> w_lind r = Some i ->
       uncorrelated (wave_cos c i) sm rs /\ uncorrelated (wave_sin c i) sm rs).
Proof. exact top_approx_residuals. Qed.
Print Assumptions C41_approximate_residuals.

(** so the full reconstruction is not the fit: the data (1 at time 2) are fitted exactly without S2,
    and reconstruct gives 3/2 *)
Theorem C41_approximate_fit_refuted : exists L t u v lat opts sm c, analysis L t u v lat opts sm c /\ approximate (c_opt c) = true /\
  lstsq_minimises L /\ o_method (c_opt c) = PStr "ols" /\
  In (2, RtoC 1) sm /\ yields_only c (not_inferred c) 2 (RtoC 1) /\ recon_u c 2 = Fin (3 / 2).
Proof. exact approx_witness. Qed.
Print Assumptions C41_approximate_fit_refuted.

(** two inferred constituents of one reference: never a result, ValueError once the constituents are selected *)
Theorem C41_approximate_single : forall L t u v lat opts c inf, solve L t u v lat opts = Ok c ->
  o_infer (c_opt c) = Some inf -> inf_approx inf = true -> NoDup (inf_reference inf).
Proof. exact top_approx_single. Qed.
Print Assumptions C41_approximate_single.

Theorem C41_approximate_refused : forall L t u v la opts compat si o s inf,
  process_opts opts (is2d v) = Ok compat ->
  slvinit (l_parse L) t u v (Some la) (oget compat "epoch") = Ok si ->
  read_opt (slv_opts (is2d v) (si_equi si) compat) = Ok o -> o_infer o = Some inf -> inf_approx inf = true ->
  ut_cnstitsel (si_tref si) (xdiv (Fin (o_rmin o)) (Fin (24 * si_lor si))) (o_cnstit o) (o_infer o) = Ok s ->
  bad_empty_index (flags_of o) s = false -> ~ NoDup (inf_reference inf) ->
  solve L t u v (Some la) opts = Err ValueError.
Proof. exact approx_refused. Qed.
Print Assumptions C41_approximate_refused.

Example C41_example : exists c, analysis inf_L ex_t (inf_u true) None (Some 45) (inf_opts true) (inf_sm true) c /\ NoDup (c_name c) /\
  o_infer (c_opt c) = Some (m2_inf true) /\ inf_approx (m2_inf true) = true /\ lstsq_minimises inf_L /\ o_method (c_opt c) = PStr "ols".
Proof.
  destruct (inf_run true) as [c If]. exists c. split; [apply If|]. split; [exact (inf_nodup _ _ If)|]. split; [apply If|]. split; [reflexivity|].
  split; [apply try_minimises|apply If].
Qed.
