(** Specification vocabulary for analyses that must agree although they were set up differently. *)
From Coq Require Import Permutation.
From Verif Require Import M_Base M_Lib M_Options M_Time M_Slvinit M_Select M_Diag M_Solve S_Dict S_Options S_Order S_Slv S_Recon S_Model.
Open Scope R_scope.
Open Scope string_scope.

(** two option dictionaries give the same value to each of the listed options *)
Definition agree (opts opts' : dict pyval) (ks : list string) : Prop :=
  forall k, In k ks -> exists x, setting opts k x /\ setting opts' k x.

(** the options that the coefficients depend on *)
Definition fit_options : list string :=
  ["nodal"; "phase"; "trend"; "infer"; "epoch"; "method"; "robust_kw"; "constit"; "Rayleigh_min"].

(** a row without intervals *)
Definition bare (r : crow) : crow :=
  {| w_name := w_name r; w_frq := w_frq r; w_lind := w_lind r; w_g := w_g r; w_A := w_A r; w_Lsmaj := w_Lsmaj r; w_Lsmin := w_Lsmin r;
     w_theta := w_theta r; w_g_ci := None; w_A_ci := None; w_Lsmaj_ci := None; w_Lsmin_ci := None; w_theta_ci := None |}.

(** the same constituents, corrections, trend option, inference, reference time and latitude *)
Record same_model (c c' : coef) : Prop := {
  sm_flags : flags_of (c_opt c') = flags_of (c_opt c);
  sm_notrend : o_notrend (c_opt c') = o_notrend (c_opt c);
  sm_infer : o_infer (c_opt c') = o_infer (c_opt c);
  sm_twodim : o_twodim (c_opt c') = o_twodim (c_opt c);
  sm_reftime : c_reftime c' = c_reftime c;
  sm_lat : c_lat c' = c_lat c;
  sm_names : Permutation (c_name c) (c_name c') }.

(** the same result with another latitude written in it *)
Definition with_lat (la : R) (c : coef) : coef :=
  {| c_name := c_name c; c_frq := c_frq c; c_lind := c_lind c; c_reftime := c_reftime c; c_lat := la; c_opt := c_opt c;
     c_nNR := c_nNR c; c_nR := c_nR c; c_nI := c_nI c; c_weights := c_weights c; c_g := c_g c; c_A := c_A c; c_Lsmaj := c_Lsmaj c;
     c_Lsmin := c_Lsmin c; c_theta := c_theta c; c_mean := c_mean c; c_slope := c_slope c; c_umean := c_umean c; c_vmean := c_vmean c;
     c_uslope := c_uslope c; c_vslope := c_vslope c; c_g_ci := c_g_ci c; c_A_ci := c_A_ci c; c_Lsmaj_ci := c_Lsmaj_ci c;
     c_Lsmin_ci := c_Lsmin_ci c; c_theta_ci := c_theta_ci c; c_PE := c_PE c; c_SNR := c_SNR c; c_diagn := c_diagn c |}.
(** the same outcome, with another latitude written in the result *)
Definition with_lat_in (la : R) (r : res coef) : res coef := match r with Ok c => Ok (with_lat la c) | Err e => Err e end.

(** nothing but the options, the order of the constituents and the intervals differs *)
Record same_but_intervals (c c' : coef) : Prop := {
  sbi_rows : Permutation (map bare (rows c)) (map bare (rows c'));
  sbi_mean : c_mean c' = c_mean c; sbi_slope : c_slope c' = c_slope c;
  sbi_umean : c_umean c' = c_umean c; sbi_vmean : c_vmean c' = c_vmean c; sbi_uslope : c_uslope c' = c_uslope c; sbi_vslope : c_vslope c' = c_vslope c;
  sbi_weights : c_weights c' = c_weights c; sbi_reftime : c_reftime c' = c_reftime c; sbi_lat : c_lat c' = c_lat c;
  sbi_counts : c_nNR c' = c_nNR c /\ c_nR c' = c_nR c /\ c_nI c' = c_nI c;
  sbi_recon : forall x, recon_u c' x = recon_u c x /\ (o_twodim (c_opt c) = true -> recon_v c' x = recon_v c x) }.

(** two latitudes on the same side of the equator and at most five degrees from it *)
Definition near_equator (la la' : R) : Prop := 0 < la <= 5 /\ 0 < la' <= 5 \/ -5 <= la < 0 /\ -5 <= la' < 0.
