(** The contribution of one constituent to a reconstruction. *)
From Coq Require Import Lia Lra.
From Coquelicot Require Import Coquelicot.
From Verif Require Import M_Base M_Tables M_Time M_Options M_Harmonics M_Diag M_Solve S_Tables M_Recon S_Order S_Basis S_Harm S_Recon S_Nodal L_Angle L_Harm L_Harm2 L_Nodal L_Nodal2.
Open Scope R_scope.

Lemma turn_deg a : turn (a / 360) = (cos (deg a), sin (deg a)).
Proof. unfold turn, deg. replace (2 * PI * (a / 360)) with (a * (PI / 180)) by field. reflexivity. Qed.

Lemma Some_inj {A} (a b : A) : Some a = Some b -> a = b.
Proof. congruence. Qed.
Lemma basis_parts g tref lat x k : (k < 146)%nat -> k <> 117%nat -> 0 < Rabs lat <= 90 \/ NodsatNone g = true ->
  exists f u v, F_at g tref lat x k = Some f /\ U_at g tref lat x k = Some u /\ V_at g tref x k = Some v /\
  tidal_basis g tref lat x k = (f * cos (2 * PI * (v + u)), f * sin (2 * PI * (v + u))).
Proof.
  intros Hk HM Hl. assert (E := basis_tidal g tref lat x k Hk HM Hl). unfold basis_at in E.
  destruct (nodal_part_eq g tref lat x k Hk HM Hl) as (f & u & E1 & E2 & _). destruct (phase_part_eq g tref x k Hk HM) as (v & E4 & _).
  exists f, u, v. repeat (split; [assumption|]). rewrite E1, E2, E4 in E. unfold wave in E.
  assert (E' : Some (tidal_basis g tref lat x k) = Some (f * cos (2 * PI * (v + u)), f * sin (2 * PI * (v + u)))) by (rewrite (Rplus_comm v u); now symmetry).
  apply Some_inj in E'. exact E'.
Qed.

Lemma scalar_as_wave f phi a g : scalar_tide f phi a g = a * fst (Cmult (f * cos phi, f * sin phi) (cos (deg (- g)), sin (deg (- g)))).
Proof. unfold scalar_tide. cbn [Cmult fst snd]. replace (deg (- g)) with (- deg g) by (unfold deg; ring). rewrite cos_neg, sin_neg, cos_minus. ring. Qed.
Lemma ellipse_as_wave f phi a b th g :
  (ellipse_u f phi a b th g, ellipse_v f phi a b th g) = rotary a b th (Cmult (f * cos phi, f * sin phi) (cos (deg (- g)), sin (deg (- g)))).
Proof.
  unfold rotary. rewrite turn_deg. unfold ellipse_u, ellipse_v. replace (deg (- g)) with (- deg g) by (unfold deg; ring).
  rewrite cos_neg, sin_neg, cos_minus, sin_minus. apply C_eq; cbn; field.
Qed.

Lemma tide_scalar c x r k A g : o_twodim (c_opt c) = false -> w_lind r = Some k -> w_A r = Some (Some A) -> w_g r = Some g ->
  (k < 146)%nat -> k <> 117%nat -> 0 < Rabs (c_lat c) <= 90 \/ NodsatNone (flags_of (c_opt c)) = true ->
  tide c x r = Some (A * fst (Cmult (tidal_basis (flags_of (c_opt c)) (c_reftime c) (c_lat c) x k) (turn (- g / 360))), 0).
Proof.
  intros H1 H2 H3 H4 Hk HM Hl. destruct (basis_parts (flags_of (c_opt c)) (c_reftime c) (c_lat c) x k Hk HM Hl) as (f & u & v & E1 & E2 & E3 & E4).
  unfold tide. cbv zeta. rewrite H2, H4, E1, E2, E3, H1, H3, E4, turn_deg, scalar_as_wave. reflexivity.
Qed.
Lemma tide_vector c x r k a b th g : o_twodim (c_opt c) = true -> w_lind r = Some k ->
  w_Lsmaj r = Some (Some a) -> w_Lsmin r = Some (Some b) -> w_theta r = Some (Some th) -> w_g r = Some g ->
  (k < 146)%nat -> k <> 117%nat -> 0 < Rabs (c_lat c) <= 90 \/ NodsatNone (flags_of (c_opt c)) = true ->
  tide c x r = Some (rotary a b th (Cmult (tidal_basis (flags_of (c_opt c)) (c_reftime c) (c_lat c) x k) (turn (- g / 360)))).
Proof.
  intros H1 H2 H3 H3' H3'' H4 Hk HM Hl. destruct (basis_parts (flags_of (c_opt c)) (c_reftime c) (c_lat c) x k Hk HM Hl) as (f & u & v & E1 & E2 & E3 & E4).
  unfold tide. cbv zeta. rewrite H2, H4, E1, E2, E3, H1, H3, H3', H3'', E4, turn_deg, ellipse_as_wave. reflexivity.
Qed.

(** ** moduli of the basis functions *)
Lemma wave_mod f u v z : 0 <= f -> wave (Some f) (Some u) (Some v) = Some z -> Cmod z = f.
Proof.
  intros Hf E. apply Some_inj in E. subst z. unfold Cmod. cbn [fst snd]. set (a := 2 * PI * (u + v)).
  replace ((f * cos a) ^ 2 + (f * sin a) ^ 2) with (f * f * (Rsqr (sin a) + Rsqr (cos a))) by (unfold Rsqr; ring).
  rewrite sin2_cos2, Rmult_1_r. now apply sqrt_square.
Qed.
Lemma modulus_none t tref lind lat g : NodsatNone g = true -> (forall k, In k lind -> (k < 146)%nat) ->
  forall row e, In row (ut_E t tref (sel_freq tref lind) lind lat g) -> In e row -> exists z, e = Some z /\ Cmod z = 1.
Proof.
  intros G Hk row e Hrow He. unfold sel_freq in Hrow. rewrite L_Basis.ut_E_rows in Hrow. apply in_map_iff in Hrow. destruct Hrow as (x & <- & _).
  apply in_map_iff in He. destruct He as (k & <- & Hin). unfold basis_at, F_at, U_at. rewrite G.
  destruct (V_at_some g tref x k (Hk k Hin)) as [v E]. rewrite E. eexists. split; [reflexivity|].
  eapply wave_mod; [|reflexivity]. lra.
Qed.
Lemma modulus_linear tref lind lat g : NodsatNone g = false -> NodsatLint g = true -> 0 < Rabs lat <= 90 -> (forall k, In k lind -> (k < 146)%nat) ->
  exists fs, length fs = length lind /\ forall t row, In row (ut_E t tref (sel_freq tref lind) lind lat g) ->
  exists zs, row = map Some zs /\ map Cmod zs = fs.
Proof.
  intros G1 G2 Hl Hk. exists (map (fun k => oget0 (nth k (F_col tref lat) None)) lind). split; [apply map_length|].
  intros t row Hrow. unfold sel_freq in Hrow. rewrite L_Basis.ut_E_rows in Hrow. apply in_map_iff in Hrow. destruct Hrow as (x & <- & _).
  induction lind as [|k l IH]; [exists []; split; reflexivity|].
  destruct IH as (zs & E & M); [intros; apply Hk; now right|].
  destruct (F_finite tref lat k (slat_nz lat Hl) (Hk k (or_introl eq_refl))) as (f & Ef & Hf).
  destruct (U_finite tref lat k (slat_nz lat Hl) (Hk k (or_introl eq_refl))) as (u & Eu).
  destruct (V_at_some g tref x k (Hk k (or_introl eq_refl))) as [v Ev].
  cbn [map]. rewrite E, Ef. unfold basis_at, F_at, U_at. rewrite G1, G2, Ef, Eu, Ev. cbn [oget0].
  eexists (_ :: zs). cbn [map]. split; [reflexivity|]. rewrite M. f_equal. eapply wave_mod; [exact Hf|reflexivity].
Qed.
