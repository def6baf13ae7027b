(** Property C76 for a whole analysis: the intervals reported for inferred constituents. *)
From Coq Require Import Lia Lra Permutation.
From Coquelicot Require Import Coquelicot.
From Verif Require Import M_Base M_Lib M_Options M_Select M_Ellipse M_Robust M_Period M_Conf M_Diag M_Solve
  S_Dict S_Options S_Order S_Select S_Fit S_Ellipse S_Model S_Conf S_Inferred L_Example L_Example14 L_Inferred.
Open Scope R_scope.
Open Scope string_scope.

(** Scalar data: request j infers i from r with ratio a and offset o.  With amplitude A and phase g of the reference and
    the variances vX, vY behind its half-widths, the inferred constituent has the half-widths of the reference's own
    coefficients with the variances a^2/2 (cos^2 o vX + sin^2 o vY) and a^2/2 (cos^2 o vY + sin^2 o vX). *)
Theorem C76_scalar : forall L t u lat opts sm c inf j i r a o, analysis L t u None lat opts sm c -> NoDup (c_name c) ->
  setting opts "conf_int" (PStr "linear") -> o_infer (c_opt c) = Some inf ->
  nth_error (inf_inferred inf) j = Some i -> nth_error (inf_reference inf) j = Some r ->
  nth_error (inf_amp inf) j = Some a -> nth_error (inf_off inf) j = Some o ->
  forall wi wr A g dA, In wi (rows c) -> In wr (rows c) -> w_name wi = Some i -> w_name wr = Some r ->
  w_A wr = Some (Some A) -> w_g wr = Some g -> w_A_ci wr = Some (Some (Fin dA)) ->
  exists vX vY rA rg iA ig, 0 <= vX /\ 0 <= vY /\
    w_A_ci wr = Some (Some rA) /\ w_g_ci wr = Some (Some rg) /\ scalar_widths A g vX vY rA rg /\
    w_A_ci wi = Some (Some iA) /\ w_g_ci wi = Some (Some ig) /\
    scalar_widths A g (a ^ 2 / 2 * (cos (rad o) ^ 2 * vX + sin (rad o) ^ 2 * vY))
                      (a ^ 2 / 2 * (cos (rad o) ^ 2 * vY + sin (rad o) ^ 2 * vX)) iA ig.
Proof. exact inferred_scalar. Qed.
Print Assumptions C76_scalar.

(** Vector data: the same with the reference's four coefficients and the complex ratios rp, rm of the request. *)
Theorem C76_vector : forall L t u v lat opts sm c inf j i r rp rm, analysis L t u (Some v) lat opts sm c -> NoDup (c_name c) ->
  setting opts "conf_int" (PStr "linear") -> o_infer (c_opt c) = Some inf -> request_at inf true j (i, r, rp, rm) ->
  forall wi wr d, In wi (rows c) -> In wr (rows c) -> w_name wi = Some i -> w_name wr = Some r ->
  w_Lsmaj_ci wr = Some (Some (Fin d)) ->
  exists Xu Yu Xv Yv, w_Lsmaj wr = Some (Some (maj_of Xu Yu Xv Yv)) /\ w_Lsmin wr = Some (Some (min_of Xu Yu Xv Yv)) /\
    w_theta wr = Some (Some (theta_of Xu Yu Xv Yv)) /\ w_g wr = Some (g_of Xu Yu Xv Yv) /\ ~ circular Xu Yu Xv Yv /\
  exists vXu vYu vXv vYv r1 r2 r3 r4 i1 i2 i3 i4, 0 <= vXu /\ 0 <= vYu /\ 0 <= vXv /\ 0 <= vYv /\
    w_Lsmaj_ci wr = Some (Some r1) /\ w_Lsmin_ci wr = Some (Some r2) /\ w_theta_ci wr = Some (Some r3) /\ w_g_ci wr = Some (Some r4) /\
    vector_widths Xu Yu Xv Yv vXu vYu vXv vYv r1 r2 r3 r4 /\
    w_Lsmaj_ci wi = Some (Some i1) /\ w_Lsmin_ci wi = Some (Some i2) /\ w_theta_ci wi = Some (Some i3) /\ w_g_ci wi = Some (Some i4) /\
    let re := fst rp ^ 2 + fst rm ^ 2 in let im := snd rp ^ 2 + snd rm ^ 2 in
    let p := re * ((vXu + vYv) / 4) + im * ((vYu + vXv) / 4) in let q := re * ((vYu + vXv) / 4) + im * ((vXu + vYv) / 4) in
    vector_widths Xu Yu Xv Yv p q q p i1 i2 i3 i4.
Proof. exact inferred_vector. Qed.
Print Assumptions C76_vector.

(** S2 inferred from M2 with half the amplitude, scalar and vector data, finite interval of M2 *)
Example C76_run : forall tw : bool, exists c,
  analysis (liL tw) ex_t (liu tw) (liv tw) (Some 45) (li_opts tw) (lism tw) c /\ NoDup (c_name c) /\
  setting (li_opts tw) "conf_int" (PStr "linear") /\ o_infer (c_opt c) = Some (s2_inf tw) /\
  nth_error (inf_inferred (s2_inf tw)) 0 = Some "S2" /\ nth_error (inf_reference (s2_inf tw)) 0 = Some "M2" /\
  nth_error (inf_amp (s2_inf tw)) 0 = Some (/ 2) /\ nth_error (inf_off (s2_inf tw)) 0 = Some 0 /\
  (tw = true -> exists rp rm, request_at (s2_inf tw) true 0 ("S2", "M2", rp, rm)) /\
  exists wr wi d, In wr (rows c) /\ In wi (rows c) /\ w_name wr = Some "M2" /\ w_name wi = Some "S2" /\
    (if tw then w_Lsmaj_ci wr = Some (Some (Fin d)) else w_A_ci wr = Some (Some (Fin d))) /\
    (tw = false -> exists A, w_A wr = Some (Some A)) /\ exists g, w_g wr = Some g.
Proof.
  intros tw. destruct (li_run tw) as (c & AN & IN & NP & RR). exists c. split; [exact AN|]. split.
  - apply (Permutation_NoDup (Permutation_sym NP)). repeat constructor; cbn; intuition discriminate.
  - split; [left; cbn; auto|]. split; [exact IN|]. split; [reflexivity|]. split; [reflexivity|].
    split; [destruct tw; reflexivity|]. split; [destruct tw; reflexivity|]. split; [|exact RR].
    intros ->. do 2 eexists. exists "S2", "M2", (/ 2), 0. repeat (split; [reflexivity|]). exists (/ 2), 0. repeat (split; [reflexivity|]). reflexivity.
Qed.
