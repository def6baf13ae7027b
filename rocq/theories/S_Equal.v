(** Specification vocabulary for robust analyses that agree with ordinary ones. *)
From Coq Require Import Permutation.
From Verif Require Import M_Base M_Lib M_Options M_Time M_Slvinit M_Select M_Diag M_Solve S_Dict S_Options S_Order S_Slv S_Recon S_Model S_Choice.
Open Scope R_scope.
Open Scope string_scope.

(** the samples that have a weight other than zero *)
Definition kept (sm : list (R * C)) (w : list R) : list (R * C) :=
  map fst (filter (fun p => if Req_EM_T (snd p) 0 then false else true) (combine sm w)).

(** every option but the method and its keywords *)
Definition all_but_method : list string :=
  ["epoch"; "constit"; "conf_int"; "trend"; "phase"; "nodal"; "infer"; "order_constit"; "MC_n"; "Rayleigh_min"; "white"; "verbose"].

(** the same result with other options recorded in it *)
Definition with_options (o : optr) (c : coef) : coef :=
  {| c_name := c_name c; c_frq := c_frq c; c_lind := c_lind c; c_reftime := c_reftime c; c_lat := c_lat c; c_opt := o;
     c_nNR := c_nNR c; c_nR := c_nR c; c_nI := c_nI c; c_weights := c_weights c; c_g := c_g c; c_A := c_A c; c_Lsmaj := c_Lsmaj c;
     c_Lsmin := c_Lsmin c; c_theta := c_theta c; c_mean := c_mean c; c_slope := c_slope c; c_umean := c_umean c; c_vmean := c_vmean c;
     c_uslope := c_uslope c; c_vslope := c_vslope c; c_g_ci := c_g_ci c; c_A_ci := c_A_ci c; c_Lsmaj_ci := c_Lsmaj_ci c;
     c_Lsmin_ci := c_Lsmin_ci c; c_theta_ci := c_theta_ci c; c_PE := c_PE c; c_SNR := c_SNR c; c_diagn := c_diagn c |}.
