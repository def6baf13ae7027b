(** Specification vocabulary for the intervals of inferred constituents. *)
From Verif Require Import M_Base M_Lib M_Options S_Order S_Ellipse S_Robust S_Conf.
Open Scope R_scope.

(** Half-widths of amplitude and phase of a constituent with amplitude A and phase g when its cosine and sine coefficients
    have the variances vX and vY and are uncorrelated (first-order propagation, 1.96 standard errors). *)
Definition scalar_widths (A g vX vY : R) (wA wg : xr) : Prop :=
  wA = Fin (196 / 100 * sqrt (cos (rad g) ^ 2 * vX + sin (rad g) ^ 2 * vY)) /\
  wg = Fin (196 / 100 * (180 / PI) / A * sqrt (sin (rad g) ^ 2 * vX + cos (rad g) ^ 2 * vY)).

(** The same for the ellipse with coefficients Xu, Yu, Xv, Yv and their variances a, b, c, d; minor axis and
    orientation when Xv is not zero. *)
Definition vector_widths (Xu Yu Xv Yv a b c d : R) (wmaj wmin wth wg : xr) : Prop :=
  exists dmaj dmin dth dg,
    partials maj_of Xu Yu Xv Yv dmaj /\ partials min_of Xu Yu Xv Yv dmin /\
    turn_partials 180 theta_of Xu Yu Xv Yv dth /\ turn_partials 180 g_of Xu Yu Xv Yv dg /\
    let half_width := fun p => Fin (196 / 100 * propagated p (sqrt a) (sqrt b) (sqrt c) (sqrt d)) in
    wmaj = half_width dmaj /\ wg = half_width dg /\ (Xv <> 0 -> wmin = half_width dmin /\ wth = half_width dth).
