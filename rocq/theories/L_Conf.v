(** Error propagation through the ellipse parameters. *)
From Coq Require Import Lia Lra Psatz.
From Coquelicot Require Import Coquelicot.
From Verif Require Import M_Base M_Lib M_Ellipse M_Conf S_Order S_Ellipse S_Conf L_Base L_Angle L_Ellipse.
Open Scope R_scope.

(** a moving point of the plane away from the origin: its angle up to full turns *)
Lemma turn_lift (a b : R -> R) x a' b' : is_derive a x a' -> is_derive b x b' -> a x * a x + b x * b x <> 0 ->
  exists phi, is_derive phi x ((a x * b' - b x * a') / (a x * a x + b x * b x)) /\
    locally x (fun y => exists k : Z, angle (a y, b y) = phi y + 2 * PI * IZR k).
Proof.
  intros Ha Hb Hn. set (D := fun y => a y * a x + b y * b x). set (N := fun y => b y * a x - a y * b x).
  exists (fun y => angle (a x, b x) + atan (N y / D y)). split.
  - assert (Da : ex_derive a x) by (eexists; eauto). assert (Db : ex_derive b x) by (eexists; eauto).
    unfold N, D. auto_derive; [repeat split; auto|].
    change (Derive (fun y => a y) x) with (Derive a x). change (Derive (fun y => b y) x) with (Derive b x).
    rewrite (is_derive_unique _ _ _ Ha), (is_derive_unique _ _ _ Hb). field.
    assert (Q : (a x * a x + b x * b x) * (a x * a x + b x * b x) <> 0)
      by (intros E; apply Rmult_integral in E; tauto).
    split; [exact Hn | intros E; apply Q; rewrite <- E; ring].
  - assert (Cd : continuous D x).
    { unfold D. apply (continuous_plus (V := R_NormedModule));
        apply (continuous_mult (K := R_AbsRing)); try apply continuous_const;
        apply (ex_derive_continuous (V := R_NormedModule)); eexists; eauto. }
    assert (Dx : 0 < D x) by (unfold D; assert (0 <= a x * a x) by nra; assert (0 <= b x * b x) by nra; lra).
    assert (Op : locally (D x) (fun y => 0 < y)) by (apply (open_gt 0); exact Dx).
    assert (Ly : locally x (fun y => 0 < D y)) by exact (Cd _ Op).
    revert Ly. apply filter_imp. intros y Hy.
    set (z := (a y, b y) : C). set (w := (a x, b x) : C). set (q := (D y, N y) : C).
    assert (Aq : angle q = atan (N y / D y)) by (unfold q, angle; destruct (Rlt_dec 0 (D y)); [reflexivity|contradiction]).
    assert (Wn : w <> RtoC 0) by (unfold w; intros E; apply Hn; injection E as -> ->; ring).
    assert (Qn : q <> RtoC 0) by (unfold q; intros E; injection E as E1 _; lra).
    assert (Zn : z <> RtoC 0) by (unfold z; intros E; injection E as E1 E2; unfold D in Hy; rewrite E1, E2 in Hy; lra).
    assert (Hm : 0 < a x * a x + b x * b x) by (unfold D in Dx; exact Dx).
    assert (E : Cmult (RtoC (a x * a x + b x * b x)) z = Cmult w q) by (apply C_eq; unfold z, w, q, D, N; cbn; ring).
    rewrite <- Aq. fold z w.
    assert (PI2 := polar_inj ((a x * a x + b x * b x) * Cmod z) (Cmod w * Cmod q) (angle z) (angle w + angle q)).
    destruct PI2 as [_ Hk]; [apply Rmult_lt_0_compat; [lra|apply Cmod_pos; auto] |
      apply Rmult_lt_0_compat; apply Cmod_pos; auto | | exact Hk].
    rewrite cis_add, !RtoC_mult.
    transitivity (Cmult (RtoC (a x * a x + b x * b x)) (Cmult (RtoC (Cmod z)) (cis (angle z)))); [ring|].
    rewrite L_Angle.polar. rewrite E.
    transitivity (Cmult (Cmult (RtoC (Cmod w)) (cis (angle w))) (Cmult (RtoC (Cmod q)) (cis (angle q)))); [|ring].
    now rewrite !L_Angle.polar.
Qed.

(** rates of both reported angles *)
Definition rate (a b a' b' : R) : R := (a * b' - b * a') / (a * a + b * b).

Lemma turn_pair (pa pb ma mb : R -> R) x pa' pb' ma' mb' :
  is_derive pa x pa' -> is_derive pb x pb' -> is_derive ma x ma' -> is_derive mb x mb' ->
  pa x * pa x + pb x * pb x <> 0 -> ma x * ma x + mb x * mb x <> 0 ->
  let th y := pymod ((angle_deg (pa y, pb y) + angle_deg (ma y, mb y)) / 2) 180 in
  let g y := pymod (- angle_deg (pa y, pb y) + th y) 360 in
  let rp := rate (pa x) (pb x) pa' pb' in let rm := rate (ma x) (mb x) ma' mb' in
  turn_rate 180 th x (180 / PI * ((rm + rp) / 2)) /\ turn_rate 180 g x (180 / PI * ((rm - rp) / 2)).
Proof.
  intros H1 H2 H3 H4 Np Nm th g rp rm.
  assert (P0 := PI_RGT_0).
  destruct (turn_lift pa pb x _ _ H1 H2 Np) as (p & Dp & Lp). destruct (turn_lift ma mb x _ _ H3 H4 Nm) as (m & Dm & Lm).
  fold (rate (pa x) (pb x) pa' pb') in Dp. fold (rate (ma x) (mb x) ma' mb') in Dm. fold rp in Dp. fold rm in Dm.
  assert (Ep : ex_derive p x) by (eexists; eauto). assert (Em : ex_derive m x) by (eexists; eauto).
  split.
  - exists (fun y => 180 / PI * ((m y + p y) / 2)). split.
    + auto_derive; [repeat split; auto|]. change (Derive (fun y => p y) x) with (Derive p x). change (Derive (fun y => m y) x) with (Derive m x).
      rewrite (is_derive_unique _ _ _ Dp), (is_derive_unique _ _ _ Dm). field. lra.
    + generalize (filter_and _ _ Lp Lm). apply filter_imp. intros y [[k Hk] [l Hl]].
      apply same_angle_trans with ((angle_deg (pa y, pb y) + angle_deg (ma y, mb y)) / 2); [apply pymod_same; lra|].
      unfold angle_deg. rewrite Hk, Hl. exists (k + l)%Z. rewrite plus_IZR. field. lra.
  - exists (fun y => 180 / PI * ((m y - p y) / 2)). split.
    + auto_derive; [repeat split; auto|]. change (Derive (fun y => p y) x) with (Derive p x). change (Derive (fun y => m y) x) with (Derive m x).
      rewrite (is_derive_unique _ _ _ Dp), (is_derive_unique _ _ _ Dm). field. lra.
    + generalize (filter_and _ _ Lp Lm). apply filter_imp. intros y [[k Hk] [l Hl]].
      destruct (pymod_same (- angle_deg (pa y, pb y) + th y) 360) as [i Hi]; [lra|]. fold (g y) in Hi.
      destruct (pymod_same ((angle_deg (pa y, pb y) + angle_deg (ma y, mb y)) / 2) 180) as [j Hj]; [lra|]. fold (th y) in Hj.
      unfold angle_deg in *. rewrite Hk in *. rewrite Hl in *. exists (2 * i + j + l - k)%Z.
      rewrite Hi, Hj. rewrite minus_IZR, !plus_IZR, mult_IZR. field. lra.
Qed.

Section Point.
Variables Xu Yu Xv Yv : R.
Definition Psq := (Xu + Yv)² + (Xv - Yu)².
Definition Msq := (Xu - Yv)² + (Xv + Yu)².
Hypothesis NP : Psq <> 0.
Hypothesis NM : Msq <> 0.

Lemma NPpos : 0 < Psq. Proof. unfold Psq in *. generalize (Rle_0_sqr (Xu + Yv)) (Rle_0_sqr (Xv - Yu)). lra. Qed.
Lemma NMpos : 0 < Msq. Proof. unfold Msq in *. generalize (Rle_0_sqr (Xu - Yv)) (Rle_0_sqr (Xv + Yu)). lra. Qed.

(** lengths of the two rotating vectors *)
Definition Rp_ := / 2 * sqrt Psq.
Definition Rm_ := / 2 * sqrt Msq.
Lemma Rp_pos : 0 < Rp_. Proof. unfold Rp_. generalize (sqrt_lt_R0 _ NPpos). lra. Qed.
Lemma Rm_pos : 0 < Rm_. Proof. unfold Rm_. generalize (sqrt_lt_R0 _ NMpos). lra. Qed.
End Point.

Lemma Cmod_half a b : Cmod (a / 2, b / 2) = / 2 * sqrt (a² + b²).
Proof.
  unfold Cmod. cbn [fst snd]. replace ((a / 2) ^ 2 + (b / 2) ^ 2) with ((/ 2)² * (a² + b²)) by (unfold Rsqr; field).
  rewrite sqrt_mult_alt; [|apply Rle_0_sqr]. rewrite sqrt_Rsqr; lra.
Qed.

Lemma maj_eq Xu Yu Xv Yv : maj_of Xu Yu Xv Yv = / 2 * sqrt ((Xu + Yv)² + (Xv - Yu)²) + / 2 * sqrt ((Xu - Yv)² + (Xv + Yu)²).
Proof. unfold maj_of, cs2cep2, e_maj. cbn [fst snd]. now rewrite !Cmod_half. Qed.
Lemma min_eq Xu Yu Xv Yv : min_of Xu Yu Xv Yv = / 2 * sqrt ((Xu + Yv)² + (Xv - Yu)²) - / 2 * sqrt ((Xu - Yv)² + (Xv + Yu)²).
Proof. unfold min_of, cs2cep2, e_min. cbn [fst snd]. now rewrite !Cmod_half. Qed.

Lemma sqrt_rate (f : R -> R) x d : is_derive f x d -> 0 < f x -> is_derive (fun y => / 2 * sqrt (f y)) x (d / (4 * sqrt (f x))).
Proof.
  intros H H0. assert (E : ex_derive f x) by (eexists; eauto). assert (S := sqrt_lt_R0 _ H0). auto_derive; [auto|].
  change (Derive (fun y => f y) x) with (Derive f x). rewrite (is_derive_unique _ _ _ H). field. lra.
Qed.

Lemma axes_partials Xu Yu Xv Yv : Psq Xu Yu Xv Yv <> 0 -> Msq Xu Yu Xv Yv <> 0 ->
  let rp := Rp_ Xu Yu Xv Yv in let rm := Rm_ Xu Yu Xv Yv in
  let ex := (Xu + Yv) / rp in let fx := (Xu - Yv) / rm in let gx := (Yu - Xv) / rp in let hx := (Yu + Xv) / rm in
  partials maj_of Xu Yu Xv Yv (/4 * (ex + fx), /4 * (gx + hx), /4 * (hx - gx), /4 * (ex - fx)) /\
  partials min_of Xu Yu Xv Yv (/4 * (ex - fx), /4 * (gx - hx), - (/4 * (hx + gx)), /4 * (ex + fx)).
Proof.
  intros NP NM rp rm ex fx gx hx.
  assert (HP := NPpos _ _ _ _ NP). assert (HM := NMpos _ _ _ _ NM).
  assert (SP := sqrt_lt_R0 _ HP). assert (SM := sqrt_lt_R0 _ HM).
  assert (K : forall (A B : R -> R) x dA dB s1 s2,
    is_derive A x dA -> is_derive B x dB -> A x = Psq Xu Yu Xv Yv -> B x = Msq Xu Yu Xv Yv ->
    dA = 2 * s1 -> dB = 2 * s2 ->
    is_derive (fun y => / 2 * sqrt (A y) + / 2 * sqrt (B y)) x (/4 * (s1 / rp + s2 / rm)) /\
    is_derive (fun y => / 2 * sqrt (A y) - / 2 * sqrt (B y)) x (/4 * (s1 / rp - s2 / rm))).
  { intros A B x dA dB s1 s2 HA HB EA EB -> ->.
    assert (DA := sqrt_rate A x _ HA). assert (DB := sqrt_rate B x _ HB). rewrite EA in DA. rewrite EB in DB.
    specialize (DA HP). specialize (DB HM). split.
    - evar_last; [apply (is_derive_plus (K := R_AbsRing) (V := R_NormedModule)); [exact DA | exact DB]|].
      unfold plus; cbn. unfold rp, rm, Rp_, Rm_. field. lra.
    - evar_last; [apply (is_derive_minus (K := R_AbsRing) (V := R_NormedModule)); [exact DA | exact DB]|].
      unfold minus, plus, opp; cbn. unfold rp, rm, Rp_, Rm_. field. lra. }
  assert (X1 := K (fun x => (x + Yv)² + (Xv - Yu)²) (fun x => (x - Yv)² + (Xv + Yu)²) Xu (2 * (Xu + Yv)) (2 * (Xu - Yv)) (Xu + Yv) (Xu - Yv)).
  assert (X2 := K (fun x => (Xu + Yv)² + (Xv - x)²) (fun x => (Xu - Yv)² + (Xv + x)²) Yu (2 * (Yu - Xv)) (2 * (Yu + Xv)) (Yu - Xv) (Yu + Xv)).
  assert (X3 := K (fun x => (Xu + Yv)² + (x - Yu)²) (fun x => (Xu - Yv)² + (x + Yu)²) Xv (2 * (- (Yu - Xv))) (2 * (Yu + Xv)) (- (Yu - Xv)) (Yu + Xv)).
  assert (X4 := K (fun x => (Xu + x)² + (Xv - Yu)²) (fun x => (Xu - x)² + (Xv + Yu)²) Yv (2 * (Xu + Yv)) (2 * (- (Xu - Yv))) (Xu + Yv) (- (Xu - Yv))).
  assert (Z : forall (f : R -> R) (x d : R), is_derive f x d -> forall d' : R, d' = d -> is_derive f x d') by (intros; now subst).
  destruct X1 as [X1 X1']; try reflexivity; try (unfold Rsqr; auto_derive; [auto|ring]).
  destruct X2 as [X2 X2']; try reflexivity; try (unfold Rsqr; auto_derive; [auto|ring]).
  destruct X3 as [X3 X3']; try reflexivity; try (unfold Rsqr; auto_derive; [auto|ring]).
  destruct X4 as [X4 X4']; try reflexivity; try (unfold Rsqr; auto_derive; [auto|ring]).
  assert (Qp := Rp_pos _ _ _ _ NP). assert (Qm := Rm_pos _ _ _ _ NM).
  split; (split; [|split; [|split]]).
  1-4: eapply is_derive_ext; [intros t; symmetry; apply maj_eq|].
  5-8: eapply is_derive_ext; [intros t; symmetry; apply min_eq|].
  all: eapply Z; [first [exact X1|exact X2|exact X3|exact X4|exact X1'|exact X2'|exact X3'|exact X4']|].
  all: subst ex fx gx hx; unfold rp, rm; field; lra.
Qed.

Lemma den_g Xu Yu Xv Yv :
  (2 * (Xu * Yu + Xv * Yv))² + (Xu² - Yu² + Xv² - Yv²)² = Psq Xu Yu Xv Yv * Msq Xu Yu Xv Yv.
Proof. unfold Psq, Msq, Rsqr. ring. Qed.
Lemma den_th Xu Yu Xv Yv :
  (2 * (Xu * Xv + Yu * Yv))² + (Xu² + Yu² - (Xv² + Yv²))² = Psq Xu Yu Xv Yv * Msq Xu Yu Xv Yv.
Proof. unfold Psq, Msq, Rsqr. ring. Qed.

Lemma angle_partials Xu Yu Xv Yv : Psq Xu Yu Xv Yv <> 0 -> Msq Xu Yu Xv Yv <> 0 ->
  let den := Psq Xu Yu Xv Yv * Msq Xu Yu Xv Yv in
  let rn := 2 * (Xu * Yu + Xv * Yv) in let rd := Xu² - Yu² + Xv² - Yv² in
  let rn' := 2 * (Xu * Xv + Yu * Yv) in let rd' := Xu² + Yu² - (Xv² + Yv²) in
  let k := 180 / PI in
  turn_partials 180 g_of Xu Yu Xv Yv (k * ((rd * Yu - rn * Xu) / den), k * ((rd * Xu + rn * Yu) / den),
                            k * ((rd * Yv - rn * Xv) / den), k * ((rd * Xv + rn * Yv) / den)) /\
  turn_partials 180 theta_of Xu Yu Xv Yv (k * ((rd' * Xv - rn' * Xu) / den), k * ((rd' * Yv - rn' * Yu) / den),
                                k * ((rd' * Xu + rn' * Xv) / den), k * ((rd' * Yu + rn' * Yv) / den)).
Proof.
  intros NP NM den rn rd rn' rd' k.
  assert (P0 := PI_RGT_0).
  assert (K : forall (pa pb ma mb : R -> R) x pa' pb' ma' mb' (dth dg : R),
    is_derive pa x pa' -> is_derive pb x pb' -> is_derive ma x ma' -> is_derive mb x mb' ->
    pa x = (Xu + Yv) / 2 -> pb x = (Xv - Yu) / 2 -> ma x = (Xu - Yv) / 2 -> mb x = (Xv + Yu) / 2 ->
    let th y := pymod ((angle_deg (pa y, pb y) + angle_deg (ma y, mb y)) / 2) 180 in
    let g y := pymod (- angle_deg (pa y, pb y) + th y) 360 in
    let A := (((Xu + Yv) * pb' - (Xv - Yu) * pa') * Msq Xu Yu Xv Yv) in
    let B := (((Xu - Yv) * mb' - (Xv + Yu) * ma') * Psq Xu Yu Xv Yv) in
    dth = k * ((B + A) / den) -> dg = k * ((B - A) / den) ->
    turn_rate 180 th x dth /\ turn_rate 180 g x dg).
  { intros pa pb ma mb x pa' pb' ma' mb' dth dg H1 H2 H3 H4 E1 E2 E3 E4 th g A B -> ->.
    assert (QP : pa x * pa x + pb x * pb x = Psq Xu Yu Xv Yv / 4) by (rewrite E1, E2; unfold Psq, Rsqr; field).
    assert (QM : ma x * ma x + mb x * mb x = Msq Xu Yu Xv Yv / 4) by (rewrite E3, E4; unfold Msq, Rsqr; field).
    destruct (turn_pair pa pb ma mb x _ _ _ _ H1 H2 H3 H4) as [T1 T2];
      [rewrite QP; intros E; apply NP; lra | rewrite QM; intros E; apply NM; lra |].
    cbv zeta in T1, T2. unfold rate in T1, T2. rewrite QP, QM in T1, T2. rewrite E1, E2, E3, E4 in T1, T2.
    split.
    - unfold th. replace (k * ((B + A) / den)) with
        (180 / PI * ((((Xu - Yv) / 2 * mb' - (Xv + Yu) / 2 * ma') / (Msq Xu Yu Xv Yv / 4) +
                    ((Xu + Yv) / 2 * pb' - (Xv - Yu) / 2 * pa') / (Psq Xu Yu Xv Yv / 4)) / 2));
        [exact T1 | unfold k, A, B, den; field; repeat split; auto; lra].
    - unfold g, th. replace (k * ((B - A) / den)) with
        (180 / PI * ((((Xu - Yv) / 2 * mb' - (Xv + Yu) / 2 * ma') / (Msq Xu Yu Xv Yv / 4) -
                    ((Xu + Yv) / 2 * pb' - (Xv - Yu) / 2 * pa') / (Psq Xu Yu Xv Yv / 4)) / 2));
        [exact T2 | unfold k, A, B, den; field; repeat split; auto; lra]. }
  assert (Q : forall a b : R, a = b -> k * (a / den) = k * (b / den)) by (intros; now subst).
  assert (D0 : forall (c x : R), is_derive (fun _ : R => c) x 0) by (intros; auto_derive; auto).
  assert (T1 : turn_rate 180 (fun x => theta_of x Yu Xv Yv) Xu (k * ((rd' * Xv - rn' * Xu) / den)) /\
               turn_rate 180 (fun x => g_of x Yu Xv Yv) Xu (k * ((rd * Yu - rn * Xu) / den))).
  { refine (K (fun x => (x + Yv) / 2) (fun _ => (Xv - Yu) / 2) (fun x => (x - Yv) / 2) (fun _ => (Xv + Yu) / 2)
      Xu (/2) 0 (/2) 0 _ _ _ (D0 _ _) _ (D0 _ _) eq_refl eq_refl eq_refl eq_refl _ _);
      try (auto_derive; [auto | lra]); apply Q; unfold rd, rn, rd', rn', Psq, Msq, Rsqr; field. }
  assert (T2 : turn_rate 180 (fun x => theta_of Xu x Xv Yv) Yu (k * ((rd' * Yv - rn' * Yu) / den)) /\
               turn_rate 180 (fun x => g_of Xu x Xv Yv) Yu (k * ((rd * Xu + rn * Yu) / den))).
  { refine (K (fun x => (Xu + Yv) / 2) (fun x => (Xv - x) / 2) (fun x => (Xu - Yv) / 2) (fun x => (Xv + x) / 2)
      Yu 0 (- /2) 0 (/2) _ _ (D0 _ _) _ (D0 _ _) _ eq_refl eq_refl eq_refl eq_refl _ _);
      try (auto_derive; [auto | lra]); apply Q; unfold rd, rn, rd', rn', Psq, Msq, Rsqr; field. }
  assert (T3 : turn_rate 180 (fun x => theta_of Xu Yu x Yv) Xv (k * ((rd' * Xu + rn' * Xv) / den)) /\
               turn_rate 180 (fun x => g_of Xu Yu x Yv) Xv (k * ((rd * Yv - rn * Xv) / den))).
  { refine (K (fun x => (Xu + Yv) / 2) (fun x => (x - Yu) / 2) (fun x => (Xu - Yv) / 2) (fun x => (x + Yu) / 2)
      Xv 0 (/2) 0 (/2) _ _ (D0 _ _) _ (D0 _ _) _ eq_refl eq_refl eq_refl eq_refl _ _);
      try (auto_derive; [auto | lra]); apply Q; unfold rd, rn, rd', rn', Psq, Msq, Rsqr; field. }
  assert (T4 : turn_rate 180 (fun x => theta_of Xu Yu Xv x) Yv (k * ((rd' * Yu + rn' * Yv) / den)) /\
               turn_rate 180 (fun x => g_of Xu Yu Xv x) Yv (k * ((rd * Xv + rn * Yv) / den))).
  { refine (K (fun x => (Xu + x) / 2) (fun x => (Xv - Yu) / 2) (fun x => (Xu - x) / 2) (fun x => (Xv + Yu) / 2)
      Yv (/2) 0 (- /2) 0 _ _ _ (D0 _ _) _ (D0 _ _) eq_refl eq_refl eq_refl eq_refl _ _);
      try (auto_derive; [auto | lra]); apply Q; unfold rd, rn, rd', rn', Psq, Msq, Rsqr; field. }
  destruct T1, T2, T3, T4. unfold turn_partials. repeat split; assumption.
Qed.

Lemma not_circular Xu Yu Xv Yv : ~ circular Xu Yu Xv Yv <-> Psq Xu Yu Xv Yv <> 0 /\ Msq Xu Yu Xv Yv <> 0.
Proof.
  assert (S : forall a b : R, a² + b² = 0 <-> a = 0 /\ b = 0).
  { intros a b. split; [|intros [-> ->]; unfold Rsqr; ring]. intros H.
    split; apply Rsqr_0_uniq; generalize (Rle_0_sqr a) (Rle_0_sqr b); lra. }
  unfold circular, Psq, Msq. rewrite !S. split.
  - intros H. split; intros [E1 E2]; apply H; [right | left]; split; lra.
  - intros [H1 H2] [[-> ->]|[-> ->]]; [apply H2 | apply H1]; split; lra.
Qed.

(** the four-term root on finite arguments *)
Lemma x4_fin d1 d2 d3 d4 s1 s2 s3 s4 :
  x4 (Fin d1, Fin d2, Fin d3, Fin d4) (Fin s1, Fin s2, Fin s3, Fin s4) = Fin (propagated (d1, d2, d3, d4) s1 s2 s3 s4).
Proof.
  unfold x4, xsq, xmul, xadd, xsqrt, propagated.
  destruct (Rlt_dec _ 0) as [H|_].
  - exfalso. assert (forall a b : R, 0 <= a * a * (b * b)) by (intros; apply Rmult_le_pos; nra).
    generalize (H0 d1 s1) (H0 d2 s2) (H0 d3 s3) (H0 d4 s4). lra.
  - f_equal. f_equal. ring.
Qed.
Lemma propagated_scale k d1 d2 d3 d4 s1 s2 s3 s4 : 0 <= k ->
  k * propagated (d1, d2, d3, d4) s1 s2 s3 s4 = propagated (k * d1, k * d2, k * d3, k * d4) s1 s2 s3 s4.
Proof.
  intros Hk. unfold propagated. rewrite <- (sqrt_Rsqr k Hk) at 1. rewrite <- sqrt_mult_alt; [|apply Rle_0_sqr].
  f_equal. unfold Rsqr. ring.
Qed.
Lemma propagated_nonneg d s1 s2 s3 s4 : 0 <= propagated d s1 s2 s3 s4.
Proof. destruct d as [[[d1 d2] d3] d4]. apply sqrt_pos. Qed.
Lemma propagated_neg3 d1 d2 d3 d4 s1 s2 s3 s4 :
  propagated (d1, d2, - d3, d4) s1 s2 s3 s4 = propagated (d1, d2, d3, d4) s1 s2 s3 s4.
Proof. unfold propagated. f_equal. ring. Qed.

Lemma xdiv_fin a b : b <> 0 -> xdiv (Fin a) (Fin b) = Fin (a / b).
Proof. intros H. cbn. destruct (Req_EM_T b 0); [contradiction|reflexivity]. Qed.

Lemma linci_general Xu Yu Xv Yv s1 s2 s3 s4 : ~ circular Xu Yu Xv Yv ->
  exists dmaj dmin dth dg,
    partials maj_of Xu Yu Xv Yv dmaj /\ partials min_of Xu Yu Xv Yv dmin /\
    turn_partials 180 theta_of Xu Yu Xv Yv dth /\ turn_partials 180 g_of Xu Yu Xv Yv dg /\
    ut_linci Xu Yu Xv Yv (Fin s1) (Fin s2) (Fin s3) (Fin s4) =
      ((Fin (propagated dmaj s1 s2 s3 s4), Fin (if Req_EM_T Xv 0 then 0 else propagated dmin s1 s2 s3 s4)),
       (Fin (propagated dg s1 s2 s3 s4), Fin (if Req_EM_T Xv 0 then 0 else propagated dth s1 s2 s3 s4))).
Proof.
  intros H. apply not_circular in H. destruct H as [NP NM].
  assert (P0 := PI_RGT_0). assert (K0 : 0 <= 180 / PI) by (apply Rlt_le, Rdiv_lt_0_compat; lra).
  destruct (axes_partials Xu Yu Xv Yv NP NM) as [A1 A2]. destruct (angle_partials Xu Yu Xv Yv NP NM) as [B1 B2].
  cbv zeta in A1, A2, B1, B2.
  do 4 eexists. split; [exact A1|]. split; [exact A2|]. split; [exact B2|]. split; [exact B1|].
  unfold ut_linci. cbv zeta.
  change (/ 2 * sqrt ((Xu + Yv)² + (Xv - Yu)²)) with (Rp_ Xu Yu Xv Yv).
  change (/ 2 * sqrt ((Xu - Yv)² + (Xv + Yu)²)) with (Rm_ Xu Yu Xv Yv).
  assert (Qp := Rp_pos _ _ _ _ NP). assert (Qm := Rm_pos _ _ _ _ NM).
  rewrite den_g, den_th.
  assert (ND : Psq Xu Yu Xv Yv * Msq Xu Yu Xv Yv <> 0) by (intros E; apply Rmult_integral in E; tauto).
  rewrite !(xdiv_fin _ (Rp_ Xu Yu Xv Yv)) by lra. rewrite !(xdiv_fin _ (Rm_ Xu Yu Xv Yv)) by lra.
  rewrite !(xdiv_fin _ (Psq Xu Yu Xv Yv * Msq Xu Yu Xv Yv)) by exact ND.
  generalize (Rp_ Xu Yu Xv Yv) (Rm_ Xu Yu Xv Yv) (Psq Xu Yu Xv Yv * Msq Xu Yu Xv Yv). intros p m q.
  unfold xq, xsub, xadd, xneg, xmul at 1 2 3 4. cbn [xmul xneg].
  rewrite !x4_fin. unfold deg. cbn [xmul]. rewrite !propagated_scale by exact K0.
  rewrite propagated_neg3. destruct (Req_EM_T Xv 0); unfold xcomplex; reflexivity.
Qed.
