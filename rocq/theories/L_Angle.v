(** Complex phases, angles and floored modulo. *)
From Coq Require Import Lra Lia Psatz.
From Verif Require Import M_Base S_Ellipse.
Open Scope R_scope.

Lemma C_eq (z w : C) : fst z = fst w -> snd z = snd w -> z = w.
Proof. destruct z, w; cbn; intros -> ->; reflexivity. Qed.

Lemma cis_add a b : cis (a + b) = Cmult (cis a) (cis b).
Proof. apply C_eq; cbn; [rewrite cos_plus | rewrite sin_plus]; ring. Qed.

Lemma cis_0 : cis 0 = RtoC 1.
Proof. unfold cis, RtoC. rewrite cos_0, sin_0. reflexivity. Qed.

Lemma cis_neg a : cis (- a) = Cconj (cis a).
Proof. apply C_eq; cbn; [apply cos_neg | apply sin_neg]. Qed.

Lemma cis_mod a : Cmod (cis a) = 1.
Proof.
  unfold Cmod, cis; cbn. replace (cos a * (cos a * 1) + sin a * (sin a * 1)) with 1; [apply sqrt_1|].
  generalize (sin2_cos2 a). unfold Rsqr. lra.
Qed.

Lemma cis_inv a : Cmult (cis a) (cis (- a)) = RtoC 1.
Proof. rewrite <- cis_add, Rplus_opp_r. apply cis_0. Qed.

Lemma sincos_Z (a : R) (k : Z) : cos (a + 2 * PI * IZR k) = cos a /\ sin (a + 2 * PI * IZR k) = sin a.
Proof.
  assert (N : forall a (n : nat), cos (a + 2 * PI * INR n) = cos a /\ sin (a + 2 * PI * INR n) = sin a).
  { intros b n. split.
    - replace (b + 2 * PI * INR n) with (b + 2 * INR n * PI) by ring. apply cos_period.
    - replace (b + 2 * PI * INR n) with (b + 2 * INR n * PI) by ring. apply sin_period. }
  destruct (Z_le_gt_dec 0 k) as [H|H].
  - rewrite <- (Z2Nat.id k H), <- INR_IZR_INZ. apply N.
  - destruct (N (a + 2 * PI * IZR k) (Z.to_nat (- k))) as [H1 H2].
    rewrite INR_IZR_INZ, Z2Nat.id, opp_IZR in H1, H2 by lia.
    replace (a + 2 * PI * IZR k + 2 * PI * - IZR k) with a in H1, H2 by ring. auto.
Qed.

Lemma cis_Z a k : cis (a + 2 * PI * IZR k) = cis a.
Proof. unfold cis. destruct (sincos_Z a k) as [-> ->]. reflexivity. Qed.

Lemma cis_inj a b : cis a = cis b -> exists k, a = b + 2 * PI * IZR k.
Proof.
  intros H. unfold cis in H. injection H as Hc Hs.
  assert (D : cos (a - b) = 1).
  { rewrite cos_minus, Hc, Hs. generalize (sin2_cos2 b). unfold Rsqr. lra. }
  assert (S : sin ((a - b) / 2) = 0).
  { assert (E : cos (a - b) = 1 - 2 * sin ((a - b) / 2) * sin ((a - b) / 2)).
    { replace (a - b) with (2 * ((a - b) / 2)) at 1 by field. apply cos_2a_sin. }
    rewrite D in E. apply Rsqr_eq_0. unfold Rsqr. lra. }
  apply sin_eq_0_0 in S. destruct S as [k Hk]. exists k. lra.
Qed.

Lemma polar z : Cmult (RtoC (Cmod z)) (cis (angle z)) = z.
Proof.
  destruct z as [x y].
  assert (Q : forall x y, x <> 0 -> sqrt (x ^ 2 + y ^ 2) = Rabs x * sqrt (1 + (y / x)²)).
  { intros a b Ha. rewrite <- (sqrt_Rsqr_abs a), <- sqrt_mult.
    - f_equal. unfold Rsqr. field. exact Ha.
    - apply Rle_0_sqr.
    - generalize (Rle_0_sqr (b / a)); lra. }
  assert (P : forall r, 0 < sqrt (1 + r²)).
  { intros r. apply sqrt_lt_R0. generalize (Rle_0_sqr r); lra. }
  apply C_eq; cbn [Cmult cis fst snd RtoC angle]; unfold Cmod; cbn [fst snd].
  - unfold angle. destruct (Rlt_dec 0 x) as [H|H].
    { rewrite (Q x y) by lra. rewrite cos_atan, Rabs_right by lra. specialize (P (y / x)). field. lra. }
    destruct (Rlt_dec x 0) as [H0|H0].
    { assert (E : cos (if Rle_dec 0 y then atan (y / x) + PI else atan (y / x) - PI) = - cos (atan (y / x))).
      { destruct (Rle_dec 0 y); [apply neg_cos|].
        rewrite cos_minus, cos_PI, sin_PI. ring. }
      rewrite E, (Q x y) by lra. rewrite cos_atan, Rabs_left by lra. specialize (P (y / x)). field. lra. }
    assert (x = 0) as -> by lra.
    destruct (Rlt_dec 0 y); [rewrite cos_PI2; ring|].
    destruct (Rlt_dec y 0); [rewrite cos_neg, cos_PI2; ring|].
    assert (y = 0) as -> by lra. replace (0 ^ 2 + 0 ^ 2) with 0 by ring. rewrite sqrt_0. ring.
  - unfold angle. destruct (Rlt_dec 0 x) as [H|H].
    { rewrite (Q x y) by lra. rewrite sin_atan, Rabs_right by lra. specialize (P (y / x)). field. lra. }
    destruct (Rlt_dec x 0) as [H0|H0].
    { assert (E : sin (if Rle_dec 0 y then atan (y / x) + PI else atan (y / x) - PI) = - sin (atan (y / x))).
      { destruct (Rle_dec 0 y); [apply neg_sin|].
        rewrite sin_minus, cos_PI, sin_PI. ring. }
      rewrite E, (Q x y) by lra. rewrite sin_atan, Rabs_left by lra. specialize (P (y / x)). field. lra. }
    assert (x = 0) as -> by lra.
    destruct (Rlt_dec 0 y).
    { rewrite sin_PI2. replace (0 ^ 2 + y ^ 2) with (Rsqr y) by (unfold Rsqr; ring). rewrite sqrt_Rsqr by lra. ring. }
    destruct (Rlt_dec y 0).
    { rewrite sin_neg, sin_PI2. replace (0 ^ 2 + y ^ 2) with (Rsqr (- y)) by (unfold Rsqr; ring).
      rewrite sqrt_Rsqr by lra. ring. }
    assert (y = 0) as -> by lra. replace (0 ^ 2 + 0 ^ 2) with 0 by ring. rewrite sqrt_0. ring.
Qed.

(** a positive multiple of a unit vector determines both *)
Lemma polar_inj r s a b : 0 < r -> 0 < s -> Cmult (RtoC r) (cis a) = Cmult (RtoC s) (cis b) ->
  r = s /\ exists k, a = b + 2 * PI * IZR k.
Proof.
  intros Hr Hs H.
  assert (E : r = s).
  { generalize (f_equal Cmod H). rewrite !Cmod_mult, !cis_mod, !Cmod_R, !Rabs_right by lra. lra. }
  split; [exact E|]. subst s. apply cis_inj.
  assert (HE : forall z, z = Cmult (RtoC (/ r)) (Cmult (RtoC r) z)).
  { intros [x y]. apply C_eq; cbn; field; lra. }
  rewrite (HE (cis a)), (HE (cis b)), H. reflexivity.
Qed.

Lemma pymod_spec x m : 0 < m -> 0 <= pymod x m < m /\ exists k, pymod x m = x + m * IZR k.
Proof.
  intros Hm. unfold pymod. split.
  - destruct (base_Int_part (x / m)) as [H1 H2].
    assert (E : x = m * (x / m)) by (field; lra).
    split.
    + apply (Rmult_le_compat_l m) in H1; lra.
    + assert (H3 : x / m - IZR (Int_part (x / m)) < 1) by lra.
      apply (Rmult_lt_compat_l m) in H3; lra.
  - exists (- Int_part (x / m))%Z. rewrite opp_IZR. ring.
Qed.

(** an angle is determined by its range and its class *)
Lemma same_angle_unique m a b : 0 < m -> 0 <= a < m -> 0 <= b < m -> same_angle m a b -> a = b.
Proof.
  intros Hm Ha Hb [k Hk].
  assert (k = 0)%Z.
  { assert (Hl : -1 < IZR k) by nra. assert (Hu : IZR k < 1) by nra.
    apply lt_IZR in Hl. apply lt_IZR in Hu. lia. }
  subst k. lra.
Qed.

Lemma same_angle_refl m a : same_angle m a a.
Proof. exists 0%Z. ring. Qed.
Lemma same_angle_sym m a b : same_angle m a b -> same_angle m b a.
Proof. intros [k ->]. exists (- k)%Z. rewrite opp_IZR. ring. Qed.
Lemma same_angle_trans m a b c : same_angle m a b -> same_angle m b c -> same_angle m a c.
Proof. intros [k ->] [l ->]. exists (l + k)%Z. rewrite plus_IZR. ring. Qed.

Lemma pymod_same x m : 0 < m -> same_angle m (pymod x m) x.
Proof. intros H. apply (pymod_spec x m H). Qed.
Lemma pymod_range x m : 0 < m -> 0 <= pymod x m < m.
Proof. intros H. apply (pymod_spec x m H). Qed.

Lemma pymod_eq x y m : 0 < m -> same_angle m x y -> pymod x m = pymod y m.
Proof.
  intros Hm H. apply (same_angle_unique m); try apply pymod_range; auto.
  eapply same_angle_trans; [apply pymod_same; auto|].
  eapply same_angle_trans; [exact H|]. apply same_angle_sym, pymod_same; auto.
Qed.

Lemma pymod_small x m : 0 <= x < m -> pymod x m = x.
Proof.
  intros H. assert (0 < m) by lra.
  apply (same_angle_unique m); auto; [apply pymod_range | apply pymod_same]; auto.
Qed.

(** degrees *)
Lemma rad_angle_deg z : rad (angle_deg z) = angle z.
Proof. unfold rad, angle_deg. field. apply PI_neq0. Qed.

Lemma cis_rad a b : cis (rad a) = cis (rad b) <-> same_angle 360 a b.
Proof.
  generalize PI_RGT_0; intros HP. split.
  - intros H. apply cis_inj in H. destruct H as [k Hk]. exists k. unfold rad in Hk.
    apply (Rmult_eq_reg_r (PI / 180)); lra.
  - intros [k ->]. replace (rad (b + 360 * IZR k)) with (rad b + 2 * PI * IZR k) by (unfold rad; field).
    apply cis_Z.
Qed.

Lemma rad_add a b : rad (a + b) = rad a + rad b. Proof. unfold rad; field. Qed.
Lemma rad_opp a : rad (- a) = - rad a. Proof. unfold rad; field. Qed.
Lemma rad_sub a b : rad (a - b) = rad a - rad b. Proof. unfold rad; field. Qed.

Lemma angle_scale c z : 0 < c -> angle (Cmult (RtoC c) z) = angle z.
Proof.
  intros Hc. destruct z as [x y].
  assert (E : Cmult (RtoC c) (x, y) = (c * x, c * y)) by (apply C_eq; cbn; ring).
  rewrite E. clear E.
  assert (I : forall a, (0 < c * a <-> 0 < a)) by (intros a; split; nra).
  assert (J : forall a, (c * a < 0 <-> a < 0)) by (intros a; split; nra).
  assert (K : forall a, (0 <= c * a <-> 0 <= a)) by (intros a; split; nra).
  unfold angle.
  destruct (Rlt_dec 0 (c * x)) as [H|H], (Rlt_dec 0 x) as [H'|H']; try (exfalso; specialize (I x); tauto).
  { replace (c * y / (c * x)) with (y / x) by (field; lra). reflexivity. }
  destruct (Rlt_dec (c * x) 0) as [H0|H0], (Rlt_dec x 0) as [H0'|H0']; try (exfalso; specialize (J x); tauto).
  { replace (c * y / (c * x)) with (y / x) by (field; lra).
    destruct (Rle_dec 0 (c * y)), (Rle_dec 0 y); try (exfalso; specialize (K y); tauto); reflexivity. }
  destruct (Rlt_dec 0 (c * y)), (Rlt_dec 0 y); try (exfalso; specialize (I y); tauto); auto.
  destruct (Rlt_dec (c * y) 0), (Rlt_dec y 0); try (exfalso; specialize (J y); tauto); auto.
Qed.

Lemma Cmod_pos z : z <> RtoC 0 -> 0 < Cmod z.
Proof. intros H. apply Cmod_gt_0. exact H. Qed.

(** angle of a product with a unit vector, up to full turns *)
Lemma angle_turn z a : z <> RtoC 0 -> same_angle 360 (angle_deg (Cmult z (cis (rad a)))) (angle_deg z + a).
Proof.
  intros Hz. apply cis_rad. rewrite rad_add, !rad_angle_deg.
  set (w := Cmult z (cis (rad a))).
  assert (Hw : Cmod w = Cmod z) by (unfold w; rewrite Cmod_mult, cis_mod; ring).
  assert (Hp : Cmult (RtoC (Cmod w)) (cis (angle w)) = Cmult (RtoC (Cmod z)) (cis (angle z + rad a))).
  { rewrite polar, cis_add, Cmult_assoc, polar. reflexivity. }
  apply polar_inj in Hp.
  - destruct Hp as [_ [k ->]]. apply cis_Z.
  - rewrite Hw. apply Cmod_pos, Hz.
  - apply Cmod_pos, Hz.
Qed.

Lemma Cmod_cj z : Cmod (Cconj z) = Cmod z.
Proof. destruct z as [x y]. unfold Cmod; cbn. f_equal. ring. Qed.

Lemma angle_conj z : z <> RtoC 0 -> same_angle 360 (angle_deg (Cconj z)) (- angle_deg z).
Proof.
  intros Hz. apply cis_rad. rewrite rad_opp, !rad_angle_deg.
  assert (Hw : Cmod (Cconj z) = Cmod z) by apply Cmod_cj.
  assert (Hp : Cmult (RtoC (Cmod (Cconj z))) (cis (angle (Cconj z))) = Cmult (RtoC (Cmod z)) (cis (- angle z))).
  { rewrite polar, cis_neg. rewrite <- (polar z) at 1.
    apply C_eq; cbn; ring. }
  apply polar_inj in Hp.
  - destruct Hp as [_ [k ->]]. apply cis_Z.
  - rewrite Hw. apply Cmod_pos, Hz.
  - apply Cmod_pos, Hz.
Qed.
