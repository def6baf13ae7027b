(** Properties C30-C33: current ellipses. *)
From Coq Require Import Lra.
From Verif Require Import M_Base M_Ellipse M_Lib M_Diag M_Solve S_Order S_Ellipse L_Angle L_Ellipse L_Core L_Ellipse2 L_Example.
Open Scope R_scope.
Open Scope string_scope.

(** C30.  Ranges: vector case, scalar case, array interface, results of solve *)
Theorem C30_vector : forall Xu Yu Xv Yv maj mi th g, cs2cep2 Xu Yu Xv Yv = (maj, mi, th, g) ->
  Rabs mi <= maj /\ 0 <= th < 180 /\ 0 <= g < 360.
Proof. exact cep2_ranges. Qed.
Print Assumptions C30_vector.

Theorem C30_scalar : forall X Y A mi th g, cs2cep1 X Y = (A, mi, th, g) ->
  0 <= A /\ mi = 0 /\ th = 0 /\ 0 <= g < 360.
Proof. exact scalar_ranges. Qed.
Print Assumptions C30_scalar.

(** rows of two columns are scalars, rows of four are vectors, anything else is refused *)
Theorem C30_rows : forall rows,
  (forall n r, (n = 2 \/ n = 4)%nat -> Forall (fun row => length row = n) rows -> cs2cep_mat rows = Ok r ->
     Forall2 (fun row e => match row with
                        | [X; Y] => e = cs2cep1 X Y
                        | [Xu; Yu; Xv; Yv] => e = cs2cep2 Xu Yu Xv Yv
                        | _ => False end) rows r) /\
  (forall n, (n = 2 \/ n = 4)%nat -> Forall (fun row => length row = n) rows -> exists r, cs2cep_mat rows = Ok r) /\
  (forall n, n <> 2%nat -> n <> 4%nat -> rows <> [] -> Forall (fun row => length row = n) rows -> cs2cep_mat rows = Err ValueError).
Proof. exact rows_rule. Qed.
Print Assumptions C30_rows.

Theorem C30_solve : forall L t u v lat opts c r, solve L t u v lat opts = Ok c -> In r (rows c) -> row_ranges r.
Proof. exact solve_ranges. Qed.
Print Assumptions C30_solve.

Example C30_example : cs2cep2 3 0 0 1 = (3, 1, 0, 0).
Proof. exact ellipse_3_1. Qed.

Example C30_solve_example : exists c r, ex_call [47%nat; 56%nat] m_vector true (dset ex_opts "order_constit" (PStr "PE")) = Ok c /\ In r (rows c).
Proof. exact solve_has_rows. Qed.

(** C31.  The ellipse is the motion given by the cosine and sine coefficients *)
Theorem C31_motion : forall Xu Yu Xv Yv maj mi th g, cs2cep2 Xu Yu Xv Yv = (maj, mi, th, g) ->
  same_motion maj mi th g Xu Yu Xv Yv.
Proof. exact cep2_motion. Qed.
Print Assumptions C31_motion.

(** The velocity turns counter-clockwise (positive areal velocity) exactly when Lsmin > 0 *)
Theorem C31_rotation_sense : forall Xu Yu Xv Yv maj mi th g w, cs2cep2 Xu Yu Xv Yv = (maj, mi, th, g) ->
  component Xu Yu w * Derive (component Xv Yv) w - component Xv Yv w * Derive (component Xu Yu) w = maj * mi.
Proof. exact rotation_sense. Qed.
Print Assumptions C31_rotation_sense.

(** no other ellipse in these ranges describes the same motion, circular motions excepted *)
Theorem C31_unique : forall Xu Yu Xv Yv maj mi th g maj' mi' th' g',
  cs2cep2 Xu Yu Xv Yv = (maj, mi, th, g) ->
  same_motion maj' mi' th' g' Xu Yu Xv Yv -> Rabs mi' < maj' -> 0 <= th' < 180 -> 0 <= g' < 360 ->
  (maj, mi, th, g) = (maj', mi', th', g').
Proof. exact unique_ranges. Qed.
Print Assumptions C31_unique.

Theorem C31_scalar : forall X Y A mi th g, cs2cep1 X Y = (A, mi, th, g) ->
  forall w, A * cos (w - rad g) = component X Y w.
Proof. exact (fun X Y A mi th g E => proj2 (proj2 (proj2 (proj2 (proj2 (cep1_lemma X Y A mi th g E)))))). Qed.
Print Assumptions C31_scalar.

Theorem C31_scalar_unique : forall X Y A mi th g A' g', cs2cep1 X Y = (A, mi, th, g) ->
  (forall w, A' * cos (w - rad g') = component X Y w) -> 0 < A' -> 0 <= g' < 360 -> A = A' /\ g = g'.
Proof. exact scalar_unique. Qed.
Print Assumptions C31_scalar_unique.

Example C31_example : same_motion 3 1 0 0 3 0 0 1 /\ Rabs 1 < 3.
Proof. split; [apply cep2_motion, ellipse_3_1 | rewrite Rabs_right; lra]. Qed.

(** C32.  Extreme speeds, both attained, and energy *)
Theorem C32_extremes : forall Xu Yu Xv Yv maj mi th g, cs2cep2 Xu Yu Xv Yv = (maj, mi, th, g) ->
  (forall w, Rabs mi <= speed Xu Yu Xv Yv w <= maj) /\
  speed Xu Yu Xv Yv (rad g) = maj /\ speed Xu Yu Xv Yv (rad (g + 90)) = Rabs mi.
Proof. exact extremes. Qed.
Print Assumptions C32_extremes.

Theorem C32_energy : forall Xu Yu Xv Yv maj mi th g, cs2cep2 Xu Yu Xv Yv = (maj, mi, th, g) ->
  maj ^ 2 + mi ^ 2 = Xu ^ 2 + Yu ^ 2 + Xv ^ 2 + Yv ^ 2.
Proof. exact (fun Xu Yu Xv Yv maj mi th g E => proj1 (cep2_energy Xu Yu Xv Yv maj mi th g E)). Qed.
Print Assumptions C32_energy.

Theorem C32_scalar_energy : forall X Y A mi th g, cs2cep1 X Y = (A, mi, th, g) -> A ^ 2 = X ^ 2 + Y ^ 2.
Proof. exact (fun X Y A mi th g E => proj1 (proj2 (proj2 (proj2 (proj2 (cep1_lemma X Y A mi th g E)))))). Qed.
Print Assumptions C32_scalar_energy.

Example C32_example : speed 3 0 0 1 0 = 3 /\ speed 3 0 0 1 (rad 90) = 1.
Proof. exact speeds_3_1. Qed.

(** C33.  Turning the vectors by a degrees *)
Theorem C33_rotation : forall a Xu Yu Xv Yv maj mi th g maj' mi' th' g',
  cs2cep2 Xu Yu Xv Yv = (maj, mi, th, g) ->
  cs2cep2 (turn_u a Xu Xv) (turn_u a Yu Yv) (turn_v a Xu Xv) (turn_v a Yu Yv) = (maj', mi', th', g') ->
  maj' = maj /\ mi' = mi /\
  (~ circular Xu Yu Xv Yv ->
   exists k : Z, th' = th + a + 180 * IZR k /\ same_angle 360 g' (g + 180 * IZR k)).
Proof. exact rotate_lemma. Qed.
Print Assumptions C33_rotation.

(** for circular motion the reported orientation turns by half the angle *)
Theorem C33_circular_refuted : cs2cep2 1 0 0 1 = (1, 1, 0, 0) /\
  cs2cep2 (turn_u 90 1 0) (turn_u 90 0 1) (turn_v 90 1 0) (turn_v 90 0 1) = (1, 1, 45, 315).
Proof. exact circle_turned. Qed.
Print Assumptions C33_circular_refuted.

Theorem C33_swap : forall Xu Yu Xv Yv maj mi th g maj' mi' th' g',
  cs2cep2 Xu Yu Xv Yv = (maj, mi, th, g) -> cs2cep2 Xv Yv Xu Yu = (maj', mi', th', g') ->
  maj' = maj /\ mi' = - mi /\
  (~ circular Xu Yu Xv Yv ->
   exists k : Z, th' = 90 - th + 180 * IZR k /\ same_angle 360 g' (g + 180 * IZR k)).
Proof. exact swap_lemma. Qed.
Print Assumptions C33_swap.

Theorem C33_scaling : forall c Xu Yu Xv Yv maj mi th g, 0 < c -> cs2cep2 Xu Yu Xv Yv = (maj, mi, th, g) ->
  cs2cep2 (c * Xu) (c * Yu) (c * Xv) (c * Yv) = (c * maj, c * mi, th, g).
Proof. exact scale_lemma. Qed.
Print Assumptions C33_scaling.

Theorem C33_scalar_scaling : forall c X Y A mi th g, 0 < c -> cs2cep1 X Y = (A, mi, th, g) ->
  cs2cep1 (c * X) (c * Y) = (c * A, mi, th, g).
Proof. exact scale1. Qed.
Print Assumptions C33_scalar_scaling.

Theorem C33_negation : forall Xu Yu Xv Yv maj mi th g maj' mi' th' g',
  cs2cep2 Xu Yu Xv Yv = (maj, mi, th, g) -> cs2cep2 (- Xu) (- Yu) (- Xv) (- Yv) = (maj', mi', th', g') ->
  maj' = maj /\ mi' = mi /\ (~ circular Xu Yu Xv Yv -> th' = th /\ same_angle 360 g' (g + 180)).
Proof. exact negate_lemma. Qed.
Print Assumptions C33_negation.

Example C33_example : ~ circular 3 0 0 1.
Proof. unfold circular. lra. Qed.
