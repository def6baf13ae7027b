(** Further ellipse lemmas and concrete ellipses. *)
From Coq Require Import Lra Lia Permutation.
From Verif Require Import M_Base M_Ellipse M_Lib M_Diag M_Solve S_Order S_Options S_Ellipse L_Options L_SelOrder L_Angle L_Ellipse L_Core L_Example.
Open Scope R_scope.
Open Scope string_scope.

Lemma scalar_ranges X Y A mi th g : cs2cep1 X Y = (A, mi, th, g) -> 0 <= A /\ mi = 0 /\ th = 0 /\ 0 <= g < 360.
Proof. intros E. apply cep1_lemma in E. tauto. Qed.

Lemma scalar_unique X Y A mi th g A' g' : cs2cep1 X Y = (A, mi, th, g) ->
  (forall w, A' * cos (w - rad g') = component X Y w) -> 0 < A' -> 0 <= g' < 360 -> A = A' /\ g = g'.
Proof.
  intros E H HA Hg. destruct (cep1_unique _ _ _ _ _ _ _ _ E H ltac:(lra)) as [H1 H2]. split; auto.
  symmetry. apply (same_angle_unique 360); auto; [lra|]. apply scalar_ranges in E. tauto.
Qed.

Lemma extremes Xu Yu Xv Yv maj mi th g : cs2cep2 Xu Yu Xv Yv = (maj, mi, th, g) ->
  (forall w, Rabs mi <= speed Xu Yu Xv Yv w <= maj) /\
  speed Xu Yu Xv Yv (rad g) = maj /\ speed Xu Yu Xv Yv (rad (g + 90)) = Rabs mi.
Proof.
  intros E. apply (extreme_speeds maj mi th); [apply cep2_motion; auto|]. apply cep2_ranges in E. tauto.
Qed.

Lemma rows_rule rows :
  (forall n r, (n = 2 \/ n = 4)%nat -> Forall (fun row => length row = n) rows -> cs2cep_mat rows = Ok r ->
     Forall2 (fun row e => match row with
                        | [X; Y] => e = cs2cep1 X Y
                        | [Xu; Yu; Xv; Yv] => e = cs2cep2 Xu Yu Xv Yv
                        | _ => False end) rows r) /\
  (forall n, (n = 2 \/ n = 4)%nat -> Forall (fun row => length row = n) rows -> exists r, cs2cep_mat rows = Ok r) /\
  (forall n, n <> 2%nat -> n <> 4%nat -> rows <> [] -> Forall (fun row => length row = n) rows -> cs2cep_mat rows = Err ValueError).
Proof.
  split; [|split].
  - intros n r Hn H E. eapply rows_lemma; [|exact E]. eapply Forall_impl; [|exact H]. cbn. intros a ->. exact Hn.
  - intros n Hn H. unfold cs2cep_mat. induction H as [|row rows Hr H IH]; cbn; [eauto|].
    destruct IH as [r ->]. destruct row as [|x [|y [|z [|w [|]]]]]; cbn in *; subst n; try lia; eauto.
  - intros n H2 H4 Hne H. unfold cs2cep_mat. destruct H as [|row rows Hr H]; [congruence|]. cbn.
    destruct row as [|x [|y [|z [|w [|]]]]]; cbn in *; subst n; try lia; reflexivity.
Qed.

Lemma angle_pos x : 0 < x -> angle (x, 0) = 0.
Proof. intros H. unfold angle. destruct (Rlt_dec 0 x); [|lra]. replace (0 / x) with 0 by (field; lra). apply atan_0. Qed.
Lemma angle_zero : angle (0, 0) = 0.
Proof. unfold angle. destruct (Rlt_dec 0 0); [lra|reflexivity]. Qed.
Lemma angle_up y : 0 < y -> angle (0, y) = PI / 2.
Proof. intros H. unfold angle. destruct (Rlt_dec 0 0); [lra|]. destruct (Rlt_dec 0 y); [reflexivity|lra]. Qed.
Lemma Cmod_pos_real x : 0 <= x -> Cmod (x, 0) = x.
Proof. intros H. change (Cmod (RtoC x) = x). rewrite Cmod_R, Rabs_right; lra. Qed.
Lemma Cmod_up y : 0 <= y -> Cmod (0, y) = y.
Proof. intros H. unfold Cmod. cbn [fst snd]. replace (0 ^ 2 + y ^ 2) with (Rsqr y) by (unfold Rsqr; ring). apply sqrt_Rsqr; auto. Qed.

Lemma ellipse_3_1 : cs2cep2 3 0 0 1 = (3, 1, 0, 0).
Proof.
  rewrite cep2_eq. unfold apc, amc.
  replace ((0 - 0) / 2) with 0 by field. replace ((0 + 0) / 2) with 0 by field.
  replace ((3 + 1) / 2) with 2 by field. replace ((3 - 1) / 2) with 1 by field.
  rewrite !Cmod_pos_real by lra. unfold angle_deg. rewrite !angle_pos by lra.
  replace ((0 * (180 / PI) + 0 * (180 / PI)) / 2) with 0 by lra.
  rewrite (pymod_small 0 180) by lra. replace (- (0 * (180 / PI)) + 0) with 0 by lra.
  rewrite (pymod_small 0 360) by lra. replace (2 + 1) with 3 by ring. replace (2 - 1) with 1 by ring. reflexivity.
Qed.

Lemma speeds_3_1 : speed 3 0 0 1 0 = 3 /\ speed 3 0 0 1 (rad 90) = 1.
Proof.
  destruct (extremes _ _ _ _ _ _ _ _ ellipse_3_1) as (_ & H1 & H2).
  replace (rad 0) with 0 in H1 by (unfold rad; field). replace (0 + 90) with 90 in H2 by ring.
  rewrite Rabs_right in H2 by lra. auto.
Qed.

Lemma circle_turned : cs2cep2 1 0 0 1 = (1, 1, 0, 0) /\
  cs2cep2 (turn_u 90 1 0) (turn_u 90 0 1) (turn_v 90 1 0) (turn_v 90 0 1) = (1, 1, 45, 315).
Proof.
  assert (HP := PI_RGT_0). split.
  - rewrite cep2_eq. unfold apc, amc.
    replace ((0 - 0) / 2) with 0 by field. replace ((0 + 0) / 2) with 0 by field.
    replace ((1 + 1) / 2) with 1 by field. replace ((1 - 1) / 2) with 0 by field.
    rewrite !Cmod_pos_real by lra. unfold angle_deg. rewrite angle_pos, angle_zero by lra.
    replace ((0 * (180 / PI) + 0 * (180 / PI)) / 2) with 0 by lra.
    rewrite (pymod_small 0 180) by lra. replace (- (0 * (180 / PI)) + 0) with 0 by lra.
    rewrite (pymod_small 0 360) by lra. replace (1 + 0) with 1 by ring. replace (1 - 0) with 1 by ring. reflexivity.
  - unfold turn_u, turn_v. replace (rad 90) with (PI / 2) by (unfold rad; field). rewrite cos_PI2, sin_PI2.
    rewrite cep2_eq. unfold apc, amc.
    replace ((1 * 0 - 0 * 1 + (0 * 1 + 1 * 0)) / 2) with 0 by field.
    replace ((1 * 1 + 0 * 0 - (0 * 0 - 1 * 1)) / 2) with 1 by field.
    replace ((1 * 0 - 0 * 1 - (0 * 1 + 1 * 0)) / 2) with 0 by field.
    replace ((1 * 1 + 0 * 0 + (0 * 0 - 1 * 1)) / 2) with 0 by field.
    rewrite Cmod_up, Cmod_pos_real by lra. unfold angle_deg. rewrite angle_up, angle_zero by lra.
    replace (PI / 2 * (180 / PI)) with 90 by (field; lra).
    replace ((90 + 0 * (180 / PI)) / 2) with 45 by lra.
    rewrite (pymod_small 45 180) by lra.
    replace (pymod (- (90) + 45) 360) with 315.
    + replace (1 + 0) with 1 by ring. replace (1 - 0) with 1 by ring. reflexivity.
    + symmetry. rewrite (pymod_eq _ 315 360); [apply pymod_small; lra|lra|]. exists (-1)%Z. lra.
Qed.

Lemma solve_has_rows : exists c r, ex_call [47%nat; 56%nat] m_vector true (dset ex_opts "order_constit" (PStr "PE")) = Ok c /\ In r (rows c).
Proof.
  destruct (run_variant [47%nat; 56%nat] ["M2"; "S2"] false m_vector true ex_opts (PStr "PE") eq_refl ex_good_vector (ex_variant_linear true) eq_refl) as (c & Hc & Wc); [unfold sorted_order; tauto|].
  assert (P := explicit_solve (exL m_vector) _ _ _ (Some 45) _ c ["M2"; "S2"] (PStr "PE") (ex_shape _) (ex_perm _) (ex_arrays [47%nat; 56%nat] m_vector true)
    (unique_dset ex_opts "order_constit" (PStr "PE") (proj1 (ex_variant_linear true)))).
  exists c, (crow_of c 0). split; [exact Hc|]. apply in_map, in_seq.
  assert (E : Permutation (c_name c) ["M2"; "S2"]).
  { apply P; auto.
    - left. cbn. auto.
    - right. split; [cbn; intuition discriminate|]. cbn. tauto.
    - left. cbn. tauto.
    - unfold sorted_order; tauto. }
  apply Permutation_length in E. cbn in E. rewrite E. lia.
Qed.
