(** Specification vocabulary for the units of the data. *)
From Verif Require Import M_Base M_Lib M_Options M_Slvinit M_Select M_Ellipse M_Robust M_Period M_Conf M_Diag M_Solve S_Dict S_Options S_RobustErr.
Open Scope R_scope.
Open Scope string_scope.

(** a number, possibly not finite, times k > 0 *)
Definition times (k : R) (x : xr) : xr := match x with Fin a => Fin (k * a) | y => y end.

(** The coefficients c in units in which lengths (or speeds) are k times as large: amplitudes, axes, their half-widths,
    mean and slope are multiplied; names, order, angles, percent energies, signal-to-noise ratios, weights and the
    diagnostics table stay. *)
Definition in_units (k : R) (c : coef) : coef :=
  let r := option_map (map (Rmult k)) in let x := option_map (map (times k)) in let n := option_map (Rmult k) in
  {| c_name := c_name c; c_frq := c_frq c; c_lind := c_lind c; c_reftime := c_reftime c;
     c_lat := c_lat c; c_opt := c_opt c; c_nNR := c_nNR c; c_nR := c_nR c; c_nI := c_nI c;
     c_weights := c_weights c; c_g := c_g c; c_A := r (c_A c); c_Lsmaj := r (c_Lsmaj c);
     c_Lsmin := r (c_Lsmin c); c_theta := c_theta c; c_mean := n (c_mean c); c_slope := n (c_slope c);
     c_umean := n (c_umean c); c_vmean := n (c_vmean c); c_uslope := n (c_uslope c); c_vslope := n (c_vslope c);
     c_g_ci := c_g_ci c; c_A_ci := x (c_A_ci c); c_Lsmaj_ci := x (c_Lsmaj_ci c); c_Lsmin_ci := x (c_Lsmin_ci c);
     c_theta_ci := c_theta_ci c; c_PE := c_PE c; c_SNR := c_SNR c; c_diagn := c_diagn c |}.

(** No intervals, or linearised ones with white noise, or with noise levels from the spectrum of evenly spaced residuals,
    or from a Lomb-Scargle periodogram that is quadratic in them: the result involves no random draws. *)
Definition no_draws (L : lib) (opts : dict pyval) (c : coef) : Prop :=
  setting opts "conf_int" (PStr "none") \/
  setting opts "conf_int" (PStr "linear") /\ (setting opts "white" (PBool true) \/ o_equi (c_opt c) = true \/ lomb_quadratic L).
