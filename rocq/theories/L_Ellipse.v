(** Lemmas on the current ellipse computed by ut_cs2cep. *)
From Coq Require Import Lra Lia Psatz.
From Verif Require Import M_Base M_Ellipse S_Ellipse L_Angle.
Open Scope R_scope.

Definition apc (Xu Yu Xv Yv : R) : C := ((Xu + Yv) / 2, (Xv - Yu) / 2).
Definition amc (Xu Yu Xv Yv : R) : C := ((Xu - Yv) / 2, (Xv + Yu) / 2).

Lemma cep2_eq Xu Yu Xv Yv : cs2cep2 Xu Yu Xv Yv =
  (Cmod (apc Xu Yu Xv Yv) + Cmod (amc Xu Yu Xv Yv), Cmod (apc Xu Yu Xv Yv) - Cmod (amc Xu Yu Xv Yv),
   pymod ((angle_deg (apc Xu Yu Xv Yv) + angle_deg (amc Xu Yu Xv Yv)) / 2) 180,
   pymod (- angle_deg (apc Xu Yu Xv Yv) +
          pymod ((angle_deg (apc Xu Yu Xv Yv) + angle_deg (amc Xu Yu Xv Yv)) / 2) 180) 360).
Proof. reflexivity. Qed.

(** angles of the ellipse in terms of the phases of the rotary components *)
Lemma cep2_angles p m : let th := pymod ((p + m) / 2) 180 in let g := pymod (- p + th) 360 in
  same_angle 360 (th - g) p /\ same_angle 360 (th + g) m.
Proof.
  intros th g.
  destruct (pymod_same ((p + m) / 2) 180 ltac:(lra)) as [k Hk]. fold th in Hk.
  destruct (pymod_same (- p + th) 360 ltac:(lra)) as [l Hl]. fold g in Hl. split.
  - exists (- l)%Z. rewrite opp_IZR. lra.
  - exists (k + l)%Z. rewrite plus_IZR. lra.
Qed.

(** an ellipse describes a motion exactly when its rotary components are those of the motion *)
Lemma motion_iff maj mi th g Xu Yu Xv Yv :
  same_motion maj mi th g Xu Yu Xv Yv <->
  Cmult (RtoC ((maj + mi) / 2)) (cis (rad (th - g))) = apc Xu Yu Xv Yv /\
  Cmult (RtoC ((maj - mi) / 2)) (cis (rad (th + g))) = amc Xu Yu Xv Yv.
Proof.
  unfold same_motion, orbit_u, orbit_v, component.
  rewrite rad_sub, rad_add. set (a := rad th). set (b := rad g). split.
  - intros H. destruct (H 0) as [H1 H2]. destruct (H (PI / 2)) as [H3 H4].
    rewrite !cos_minus, !sin_minus, cos_0, sin_0 in H1, H2.
    rewrite !cos_minus, !sin_minus, cos_PI2, sin_PI2 in H3, H4.
    split; apply C_eq; cbn; rewrite ?cos_minus, ?cos_plus, ?sin_minus, ?sin_plus; lra.
  - intros [H1 H2] w.
    generalize (f_equal fst H1) (f_equal snd H1) (f_equal fst H2) (f_equal snd H2). clear H1 H2.
    cbn. rewrite !cos_minus, !cos_plus, !sin_minus, !sin_plus. intros H1 H2 H3 H4.
    assert (E1 : Xu = (maj + mi) / 2 * (cos a * cos b + sin a * sin b) + (maj - mi) / 2 * (cos a * cos b - sin a * sin b)) by lra.
    assert (E2 : Yv = (maj + mi) / 2 * (cos a * cos b + sin a * sin b) - (maj - mi) / 2 * (cos a * cos b - sin a * sin b)) by lra.
    assert (E3 : Xv = (maj + mi) / 2 * (sin a * cos b - cos a * sin b) + (maj - mi) / 2 * (sin a * cos b + cos a * sin b)) by lra.
    assert (E4 : Yu = (maj - mi) / 2 * (sin a * cos b + cos a * sin b) - (maj + mi) / 2 * (sin a * cos b - cos a * sin b)) by lra.
    subst. split; field.
Qed.

Lemma cep2_motion Xu Yu Xv Yv maj mi th g : cs2cep2 Xu Yu Xv Yv = (maj, mi, th, g) ->
  same_motion maj mi th g Xu Yu Xv Yv.
Proof.
  rewrite cep2_eq. set (p := apc Xu Yu Xv Yv). set (m := amc Xu Yu Xv Yv). intros H.
  injection H as <- <- Hth Hg.
  destruct (cep2_angles (angle_deg p) (angle_deg m)) as [H1 H2].
  rewrite Hth in H1, H2, Hg. rewrite Hg in H1, H2.
  apply cis_rad in H1. apply cis_rad in H2. rewrite rad_angle_deg in H1, H2.
  apply motion_iff. rewrite H1, H2. fold p m.
  replace ((Cmod p + Cmod m + (Cmod p - Cmod m)) / 2) with (Cmod p) by field.
  replace ((Cmod p + Cmod m - (Cmod p - Cmod m)) / 2) with (Cmod m) by field.
  split; apply polar.
Qed.

Lemma cep2_ranges Xu Yu Xv Yv maj mi th g : cs2cep2 Xu Yu Xv Yv = (maj, mi, th, g) ->
  Rabs mi <= maj /\ 0 <= th < 180 /\ 0 <= g < 360.
Proof.
  rewrite cep2_eq. intros H. injection H as <- <- <- <-. split.
  - generalize (Cmod_ge_0 (apc Xu Yu Xv Yv)) (Cmod_ge_0 (amc Xu Yu Xv Yv)). intros.
    apply Rabs_le. lra.
  - split; apply pymod_range; lra.
Qed.

Lemma circular_iff Xu Yu Xv Yv : circular Xu Yu Xv Yv <-> apc Xu Yu Xv Yv = RtoC 0 \/ amc Xu Yu Xv Yv = RtoC 0.
Proof.
  unfold circular, apc, amc, RtoC. split.
  - intros [[-> ->]|[-> ->]]; [right | left]; apply C_eq; cbn; field.
  - intros [H|H]; injection H as H1 H2; [right | left]; split; lra.
Qed.

(** the ellipse of a motion is unique, except for circular motions *)
Lemma motion_unique Xu Yu Xv Yv maj mi th g maj' mi' th' g' :
  cs2cep2 Xu Yu Xv Yv = (maj, mi, th, g) ->
  same_motion maj' mi' th' g' Xu Yu Xv Yv -> Rabs mi' <= maj' ->
  maj = maj' /\ mi = mi' /\
  (~ circular Xu Yu Xv Yv -> exists k : Z, th' = th + 180 * IZR k /\ same_angle 360 g' (g + 180 * IZR k)).
Proof.
  intros E M HR. apply motion_iff in M. destruct M as [M1 M2].
  rewrite cep2_eq in E. set (p := apc Xu Yu Xv Yv) in *. set (m := amc Xu Yu Xv Yv) in *.
  injection E as E1 E2 Eth Eg.
  assert (HA : - maj' <= mi' <= maj') by (apply Rabs_le_between in HR; lra).
  assert (Hp : Cmod p = (maj' + mi') / 2).
  { rewrite <- M1, Cmod_mult, cis_mod, Cmod_R, Rabs_right; lra. }
  assert (Hm : Cmod m = (maj' - mi') / 2).
  { rewrite <- M2, Cmod_mult, cis_mod, Cmod_R, Rabs_right; lra. }
  split; [lra|]. split; [lra|]. intros NC.
  assert (Np : p <> RtoC 0) by (intros Z; apply NC, circular_iff; auto).
  assert (Nm : m <> RtoC 0) by (intros Z; apply NC, circular_iff; auto).
  destruct (cep2_angles (angle_deg p) (angle_deg m)) as [H1 H2].
  rewrite Eth in H1, H2, Eg. rewrite Eg in H1, H2.
  assert (A1 : same_angle 360 (th' - g') (angle_deg p)).
  { apply cis_rad. rewrite rad_angle_deg.
    rewrite <- (polar p) in M1. apply polar_inj in M1.
    - destruct M1 as [_ [k ->]]. apply cis_Z.
    - rewrite <- Hp. apply Cmod_pos; auto.
    - apply Cmod_pos; auto. }
  assert (A2 : same_angle 360 (th' + g') (angle_deg m)).
  { apply cis_rad. rewrite rad_angle_deg.
    rewrite <- (polar m) in M2. apply polar_inj in M2.
    - destruct M2 as [_ [k ->]]. apply cis_Z.
    - rewrite <- Hm. apply Cmod_pos; auto.
    - apply Cmod_pos; auto. }
  destruct H1 as [k1 H1], H2 as [k2 H2], A1 as [l1 A1], A2 as [l2 A2].
  exists (l1 + l2 - k1 - k2)%Z. rewrite !minus_IZR, !plus_IZR. split; [lra|].
  exists (k1 - l1)%Z. rewrite !minus_IZR. lra.
Qed.

Lemma unique_ranges Xu Yu Xv Yv maj mi th g maj' mi' th' g' :
  cs2cep2 Xu Yu Xv Yv = (maj, mi, th, g) ->
  same_motion maj' mi' th' g' Xu Yu Xv Yv -> Rabs mi' < maj' -> 0 <= th' < 180 -> 0 <= g' < 360 ->
  (maj, mi, th, g) = (maj', mi', th', g').
Proof.
  intros E M HR Hth Hg.
  destruct (motion_unique _ _ _ _ _ _ _ _ _ _ _ _ E M (Rlt_le _ _ HR)) as [-> [-> H]].
  assert (NC : ~ circular Xu Yu Xv Yv).
  { intros NC. apply circular_iff in NC. rewrite cep2_eq in E. injection E as E1 E2 _ _.
    assert (HA : - maj' < mi' < maj') by (apply Rabs_lt_between in HR; lra).
    destruct NC as [Z|Z]; rewrite Z, Cmod_0 in E1, E2; lra. }
  destruct (H NC) as [k [H1 H2]].
  destruct (cep2_ranges _ _ _ _ _ _ _ _ E) as [_ [Rth Rg]].
  assert (Et : th' = th) by (apply (same_angle_unique 180); auto; [lra | exists k; exact H1]).
  assert (Ek : IZR k = 0) by lra. rewrite Ek in H2.
  assert (Eg : g' = g) by (apply (same_angle_unique 360); auto; [lra | replace g with (g + 180 * 0) by ring; exact H2]).
  rewrite Et, Eg. reflexivity.
Qed.

Lemma speed_ellipse maj mi th g Xu Yu Xv Yv w : same_motion maj mi th g Xu Yu Xv Yv ->
  speed Xu Yu Xv Yv w = sqrt (maj² * (cos (w - rad g))² + mi² * (sin (w - rad g))²).
Proof.
  intros M. destruct (M w) as [H1 H2]. unfold speed. rewrite <- H1, <- H2. f_equal.
  unfold orbit_u, orbit_v. generalize (cos (w - rad g)) (sin (w - rad g)). intros c s.
  generalize (sin2_cos2 (rad th)). unfold Rsqr. generalize (sin (rad th)) (cos (rad th)). intros x y E.
  transitivity ((maj * c * (maj * c) + mi * s * (mi * s)) * (x * x + y * y)); [ring | rewrite E; ring].
Qed.

Lemma extreme_speeds maj mi th g Xu Yu Xv Yv : same_motion maj mi th g Xu Yu Xv Yv -> Rabs mi <= maj ->
  (forall w, Rabs mi <= speed Xu Yu Xv Yv w <= maj) /\
  speed Xu Yu Xv Yv (rad g) = maj /\ speed Xu Yu Xv Yv (rad (g + 90)) = Rabs mi.
Proof.
  intros M HR. assert (Hmaj : 0 <= maj) by (generalize (Rabs_pos mi); lra).
  assert (HQ : mi² <= maj²) by (apply neg_pos_Rsqr_le; apply Rabs_le_between in HR; lra).
  repeat split.
  - rewrite (speed_ellipse _ _ _ _ _ _ _ _ w M), <- (sqrt_Rsqr_abs mi). apply sqrt_le_1_alt.
    generalize (sin2_cos2 (w - rad g)). generalize ((sin (w - rad g))²) (Rle_0_sqr (cos (w - rad g))).
    intros s Hc E. replace s with (1 - (cos (w - rad g))²) by lra. nra.
  - rewrite (speed_ellipse _ _ _ _ _ _ _ _ w M). rewrite <- (sqrt_Rsqr maj Hmaj) at 2. apply sqrt_le_1_alt.
    generalize (sin2_cos2 (w - rad g)). generalize ((cos (w - rad g))²) (Rle_0_sqr (sin (w - rad g))).
    intros s Hc E. replace s with (1 - (sin (w - rad g))²) by lra. nra.
  - rewrite (speed_ellipse _ _ _ _ _ _ _ _ _ M). unfold Rminus. rewrite Rplus_opp_r, cos_0, sin_0.
    replace (maj² * 1² + mi² * 0²) with (maj²) by (unfold Rsqr; ring). apply sqrt_Rsqr; auto.
  - rewrite (speed_ellipse _ _ _ _ _ _ _ _ _ M). rewrite rad_add.
    replace (rad g + rad 90 - rad g) with (PI / 2) by (unfold rad; field).
    rewrite cos_PI2, sin_PI2. replace (maj² * 0² + mi² * 1²) with (mi²) by (unfold Rsqr; ring).
    apply sqrt_Rsqr_abs.
Qed.

Lemma Cmod_sq z : Cmod z * Cmod z = fst z * fst z + snd z * snd z.
Proof. unfold Cmod. rewrite sqrt_sqrt; [ring | nra]. Qed.

Lemma cep2_energy Xu Yu Xv Yv maj mi th g : cs2cep2 Xu Yu Xv Yv = (maj, mi, th, g) ->
  maj ^ 2 + mi ^ 2 = Xu ^ 2 + Yu ^ 2 + Xv ^ 2 + Yv ^ 2 /\ maj * mi = Xu * Yv - Xv * Yu.
Proof.
  rewrite cep2_eq. intros H. injection H as <- <- _ _.
  generalize (Cmod_sq (apc Xu Yu Xv Yv)) (Cmod_sq (amc Xu Yu Xv Yv)). cbn [apc amc fst snd].
  generalize (Cmod (apc Xu Yu Xv Yv)) (Cmod (amc Xu Yu Xv Yv)). intros a b Ha Hb. split.
  - transitivity (2 * (a * a) + 2 * (b * b)); [ring|]. rewrite Ha, Hb. field.
  - transitivity (a * a - b * b); [ring|]. rewrite Ha, Hb. field.
Qed.

Lemma component_derive X Y w : is_derive (component X Y) w (component Y (- X) w).
Proof. unfold component. auto_derive; [trivial|]. ring. Qed.

Lemma rotation_sense Xu Yu Xv Yv maj mi th g w : cs2cep2 Xu Yu Xv Yv = (maj, mi, th, g) ->
  component Xu Yu w * Derive (component Xv Yv) w - component Xv Yv w * Derive (component Xu Yu) w = maj * mi.
Proof.
  intros E. rewrite (is_derive_unique _ _ _ (component_derive Xv Yv w)), (is_derive_unique _ _ _ (component_derive Xu Yu w)).
  destruct (cep2_energy _ _ _ _ _ _ _ _ E) as [_ ->]. unfold component.
  generalize (sin2_cos2 w). unfold Rsqr. generalize (sin w) (cos w). intros s c H.
  transitivity ((Xu * Yv - Xv * Yu) * (s * s + c * c)); [ring | rewrite H; ring].
Qed.

(** ** Symmetries *)
Lemma turned_motion a maj mi th g Xu Yu Xv Yv : same_motion maj mi th g Xu Yu Xv Yv ->
  same_motion maj mi (th + a) g (turn_u a Xu Xv) (turn_u a Yu Yv) (turn_v a Xu Xv) (turn_v a Yu Yv).
Proof.
  intros M w. destruct (M w) as [H1 H2]. unfold orbit_u, orbit_v, component, turn_u, turn_v in *.
  rewrite rad_add, cos_plus, sin_plus.
  split.
  - transitivity ((Xu * cos w + Yu * sin w) * cos (rad a) - (Xv * cos w + Yv * sin w) * sin (rad a));
      [rewrite <- H1, <- H2|]; ring.
  - transitivity ((Xu * cos w + Yu * sin w) * sin (rad a) + (Xv * cos w + Yv * sin w) * cos (rad a));
      [rewrite <- H1, <- H2|]; ring.
Qed.

Lemma turn_circular a Xu Yu Xv Yv :
  circular (turn_u a Xu Xv) (turn_u a Yu Yv) (turn_v a Xu Xv) (turn_v a Yu Yv) -> circular Xu Yu Xv Yv.
Proof.
  unfold circular, turn_u, turn_v. generalize (sin2_cos2 (rad a)). unfold Rsqr.
  generalize (sin (rad a)) (cos (rad a)). intros s c E [[H1 H2]|[H1 H2]]; [left | right]; split.
  - apply (Rmult_eq_compat_r c) in H1 as H1c. apply (Rmult_eq_compat_r s) in H2 as H2s.
    replace Yv with ((s * s + c * c) * Yv) by (rewrite E; ring).
    replace Xu with ((s * s + c * c) * Xu) by (rewrite E; ring). lra.
  - apply (Rmult_eq_compat_r s) in H1 as H1c. apply (Rmult_eq_compat_r c) in H2 as H2s.
    replace Yu with ((s * s + c * c) * Yu) by (rewrite E; ring).
    replace Xv with ((s * s + c * c) * Xv) by (rewrite E; ring). lra.
  - apply (Rmult_eq_compat_r c) in H1 as H1c. apply (Rmult_eq_compat_r s) in H2 as H2s.
    replace Yv with ((s * s + c * c) * Yv) by (rewrite E; ring).
    replace Xu with ((s * s + c * c) * Xu) by (rewrite E; ring). lra.
  - apply (Rmult_eq_compat_r s) in H1 as H1c. apply (Rmult_eq_compat_r c) in H2 as H2s.
    replace Yu with ((s * s + c * c) * Yu) by (rewrite E; ring).
    replace Xv with ((s * s + c * c) * Xv) by (rewrite E; ring). lra.
Qed.

Lemma rotate_lemma a Xu Yu Xv Yv maj mi th g maj' mi' th' g' :
  cs2cep2 Xu Yu Xv Yv = (maj, mi, th, g) ->
  cs2cep2 (turn_u a Xu Xv) (turn_u a Yu Yv) (turn_v a Xu Xv) (turn_v a Yu Yv) = (maj', mi', th', g') ->
  maj' = maj /\ mi' = mi /\
  (~ circular Xu Yu Xv Yv ->
   exists k : Z, th' = th + a + 180 * IZR k /\ same_angle 360 g' (g + 180 * IZR k)).
Proof.
  intros E E'.
  destruct (cep2_ranges _ _ _ _ _ _ _ _ E) as [HR _].
  pose proof (turned_motion a _ _ _ _ _ _ _ _ (cep2_motion _ _ _ _ _ _ _ _ E)) as M.
  destruct (motion_unique _ _ _ _ _ _ _ _ _ _ _ _ E' M HR) as [H1 [H2 H3]].
  split; [exact H1|]. split; [exact H2|]. intros NC.
  destruct H3 as [k [A B]]; [intros Z; apply NC, (turn_circular a), Z|].
  exists (- k)%Z. rewrite opp_IZR. split; [lra|]. destruct B as [l B]. exists (- l)%Z. rewrite opp_IZR. lra.
Qed.

Lemma swapped_motion maj mi th g Xu Yu Xv Yv : same_motion maj mi th g Xu Yu Xv Yv ->
  same_motion maj (- mi) (90 - th) g Xv Yv Xu Yu.
Proof.
  intros M w. destruct (M w) as [H1 H2]. unfold orbit_u, orbit_v in *.
  rewrite rad_sub. replace (rad 90) with (PI / 2) by (unfold rad; field).
  rewrite cos_shift, sin_shift. split; [rewrite <- H2 | rewrite <- H1]; ring.
Qed.

Lemma swap_lemma Xu Yu Xv Yv maj mi th g maj' mi' th' g' :
  cs2cep2 Xu Yu Xv Yv = (maj, mi, th, g) -> cs2cep2 Xv Yv Xu Yu = (maj', mi', th', g') ->
  maj' = maj /\ mi' = - mi /\
  (~ circular Xu Yu Xv Yv ->
   exists k : Z, th' = 90 - th + 180 * IZR k /\ same_angle 360 g' (g + 180 * IZR k)).
Proof.
  intros E E'.
  destruct (cep2_ranges _ _ _ _ _ _ _ _ E) as [HR _].
  pose proof (swapped_motion _ _ _ _ _ _ _ _ (cep2_motion _ _ _ _ _ _ _ _ E)) as M.
  rewrite <- Rabs_Ropp in HR.
  destruct (motion_unique _ _ _ _ _ _ _ _ _ _ _ _ E' M HR) as [H1 [H2 H3]].
  split; [exact H1|]. split; [exact H2|]. intros NC.
  destruct H3 as [k [A B]].
  { intros Z. apply NC. unfold circular in *. destruct Z as [[-> ->]|[-> ->]]; [right | left]; split; ring. }
  exists (- k)%Z. rewrite opp_IZR. split; [lra|]. destruct B as [l B]. exists (- l)%Z. rewrite opp_IZR. lra.
Qed.

Lemma scale_lemma c Xu Yu Xv Yv maj mi th g : 0 < c -> cs2cep2 Xu Yu Xv Yv = (maj, mi, th, g) ->
  cs2cep2 (c * Xu) (c * Yu) (c * Xv) (c * Yv) = (c * maj, c * mi, th, g).
Proof.
  intros Hc. rewrite !cep2_eq. intros H.
  assert (P : apc (c * Xu) (c * Yu) (c * Xv) (c * Yv) = Cmult (RtoC c) (apc Xu Yu Xv Yv)) by (apply C_eq; cbn; field).
  assert (M : amc (c * Xu) (c * Yu) (c * Xv) (c * Yv) = Cmult (RtoC c) (amc Xu Yu Xv Yv)) by (apply C_eq; cbn; field).
  rewrite P, M, !Cmod_mult, Cmod_R, Rabs_right by lra. unfold angle_deg in *. rewrite !angle_scale by auto.
  injection H as <- <- <- <-. repeat apply f_equal2; auto; ring.
Qed.

(** negation, used for reversing the sign of the data *)
Lemma negated_motion maj mi th g Xu Yu Xv Yv : same_motion maj mi th g Xu Yu Xv Yv ->
  same_motion maj mi th (g + 180) (- Xu) (- Yu) (- Xv) (- Yv).
Proof.
  intros M w. destruct (M w) as [H1 H2]. unfold orbit_u, orbit_v, component in *.
  rewrite rad_add. replace (w - (rad g + rad 180)) with (w - rad g - PI) by (unfold rad; field).
  assert (A : cos (w - rad g - PI) = - cos (w - rad g)) by (rewrite (cos_minus _ PI), cos_PI, sin_PI; ring).
  assert (B : sin (w - rad g - PI) = - sin (w - rad g)) by (rewrite (sin_minus _ PI), cos_PI, sin_PI; ring).
  rewrite A, B. split; lra.
Qed.

Lemma negate_lemma Xu Yu Xv Yv maj mi th g maj' mi' th' g' :
  cs2cep2 Xu Yu Xv Yv = (maj, mi, th, g) -> cs2cep2 (- Xu) (- Yu) (- Xv) (- Yv) = (maj', mi', th', g') ->
  maj' = maj /\ mi' = mi /\ (~ circular Xu Yu Xv Yv -> th' = th /\ same_angle 360 g' (g + 180)).
Proof.
  intros E E'.
  destruct (cep2_ranges _ _ _ _ _ _ _ _ E) as [HR [Hth _]].
  destruct (cep2_ranges _ _ _ _ _ _ _ _ E') as [_ [Hth' _]].
  pose proof (negated_motion _ _ _ _ _ _ _ _ (cep2_motion _ _ _ _ _ _ _ _ E)) as M.
  destruct (motion_unique _ _ _ _ _ _ _ _ _ _ _ _ E' M HR) as [H1 [H2 H3]].
  split; [exact H1|]. split; [exact H2|]. intros NC.
  destruct H3 as [k [A B]].
  { intros Z. apply NC. unfold circular in *. destruct Z as [[H4 H5]|[H4 H5]]; [left | right]; split; lra. }
  assert (th = th') by (apply (same_angle_unique 180); auto; [lra | exists k; exact A]).
  split; [auto|]. assert (IZR k = 0) by lra. destruct B as [l B]. exists (- l)%Z. rewrite opp_IZR. nra.
Qed.

(** ** Scalars *)
Lemma cep1_lemma X Y A mi th g : cs2cep1 X Y = (A, mi, th, g) ->
  0 <= A /\ mi = 0 /\ th = 0 /\ 0 <= g < 360 /\ A ^ 2 = X ^ 2 + Y ^ 2 /\
  forall w, A * cos (w - rad g) = component X Y w.
Proof.
  unfold cs2cep1. set (z := (X, - Y) : C). intros H. injection H as <- <- <- Hg.
  split; [apply Cmod_ge_0|]. split; [reflexivity|]. split; [reflexivity|].
  split; [rewrite <- Hg; apply pymod_range; lra|].
  split; [generalize (Cmod_sq z); cbn; intros; lra|].
  intros w. assert (Ha : same_angle 360 (- g) (angle_deg z)).
  { destruct (pymod_same (- angle_deg z) 360 ltac:(lra)) as [k Hk]. exists (- k)%Z. rewrite opp_IZR. lra. }
  apply cis_rad in Ha. rewrite rad_angle_deg in Ha.
  pose proof (polar z) as P. rewrite <- Ha, rad_opp in P.
  generalize (f_equal fst P) (f_equal snd P). cbn. rewrite cos_neg, sin_neg, cos_minus. unfold component.
  intros P1 P2. replace X with (Cmod z * cos (rad g)) by lra. replace Y with (Cmod z * sin (rad g)) by lra. ring.
Qed.

Lemma cep1_unique X Y A mi th g A' g' : cs2cep1 X Y = (A, mi, th, g) ->
  (forall w, A' * cos (w - rad g') = component X Y w) -> 0 <= A' ->
  A = A' /\ (0 < A' -> same_angle 360 g' g).
Proof.
  intros E M HA. destruct (cep1_lemma _ _ _ _ _ _ E) as [H0 [_ [_ [_ [HE H]]]]].
  assert (P : Cmult (RtoC A) (cis (rad g)) = Cmult (RtoC A') (cis (rad g'))).
  { generalize (H 0) (M 0) (H (PI / 2)) (M (PI / 2)). rewrite !cos_minus, cos_0, sin_0, cos_PI2, sin_PI2.
    intros. apply C_eq; cbn; lra. }
  assert (A = A').
  { generalize (f_equal Cmod P). rewrite !Cmod_mult, !cis_mod, !Cmod_R, !Rabs_right by lra. lra. }
  split; [auto|]. intros Hp. subst A'. apply polar_inj in P; auto.
  destruct P as [_ [k Hk]]. apply cis_rad. rewrite Hk. symmetry. apply cis_Z.
Qed.

Lemma scale1 c X Y A mi th g : 0 < c -> cs2cep1 X Y = (A, mi, th, g) -> cs2cep1 (c * X) (c * Y) = (c * A, mi, th, g).
Proof.
  intros Hc. unfold cs2cep1. intros H. injection H as <- <- <- <-.
  replace ((c * X, - (c * Y)) : C) with (Cmult (RtoC c) (X, - Y)) by (apply C_eq; cbn; ring).
  rewrite Cmod_mult, Cmod_R, Rabs_right by lra. unfold angle_deg. rewrite angle_scale by auto. reflexivity.
Qed.

Lemma negate1 X Y A mi th g A' mi' th' g' :
  cs2cep1 X Y = (A, mi, th, g) -> cs2cep1 (- X) (- Y) = (A', mi', th', g') ->
  A' = A /\ (0 < A -> same_angle 360 g' (g + 180)).
Proof.
  intros E E'. destruct (cep1_lemma _ _ _ _ _ _ E) as [H0 [_ [_ [_ [_ H]]]]].
  destruct (cep1_unique _ _ _ _ _ _ A (g + 180) E') as [H1 H2]; auto.
  { intros w. specialize (H w). unfold component in *. rewrite rad_add.
    replace (w - (rad g + rad 180)) with (w - rad g - PI) by (unfold rad; field).
    rewrite (cos_minus _ PI), cos_PI, sin_PI. lra. }
  split; [auto|]. intros HA. apply same_angle_sym, H2, HA.
Qed.

(** ** Rows *)
Lemma rows_lemma rows r : Forall (fun row => length row = 2%nat \/ length row = 4%nat) rows ->
  cs2cep_mat rows = Ok r ->
  Forall2 (fun row e => match row with
                        | [X; Y] => e = cs2cep1 X Y
                        | [Xu; Yu; Xv; Yv] => e = cs2cep2 Xu Yu Xv Yv
                        | _ => False end) rows r.
Proof.
  intros H. unfold cs2cep_mat. revert r. induction H as [|row rows Hr H IH]; intros r E; cbn in E.
  - injection E as <-. constructor.
  - destruct (cs2cep_row row) eqn:Er; cbn in E; [|discriminate].
    destruct (mapM cs2cep_row rows) eqn:Em; cbn in E; [|discriminate].
    injection E as <-. constructor; [|apply IH; reflexivity].
    destruct row as [|x [|y [|z [|w [|]]]]]; cbn in *; try discriminate; try (destruct Hr; discriminate);
      injection Er as <-; reflexivity.
Qed.
