(** Property C78: nodal corrections and basis functions in terms of the published tables. *)
From Coq Require Import Lia Lra QArith Qreals.
From Coquelicot Require Import Coquelicot.
From Verif Require Import M_Base M_Tables M_Time M_Options M_Harmonics M_Diag M_Solve M_Recon S_Tables S_Order S_Harm S_Recon S_Nodal L_Angle L_Nodal L_Nodal2 L_Nodal3.
Open Scope R_scope.

(** C78.  A primary constituent: amplitude factor and phase correction are modulus and principal argument (in cycles) of
    1 + the sum of its satellites, at any time *)
Theorem C78_primary : forall jd lat k, is_primary k -> 0 < Rabs lat <= 90 -> exists f u,
  nth k (F_col jd lat) None = Some f /\ nth k (U_col jd lat) None = Some u /\ polar_form (nodal_primary lat jd k) f u.
Proof. exact primary_polar. Qed.
Print Assumptions C78_primary.

(** a shallow-water constituent: product of the factors of its parents to the powers of their multipliers, and the
    combination of the corrections of its parents *)
Theorem C78_shallow : forall jd lat k, is_shallow k -> 0 < Rabs lat <= 90 -> exists fs us : nat -> R,
  (forall r, In r (rows_of k) -> polar_form (nodal_primary lat jd (row_parent r)) (fs r) (us r)) /\
  nth k (F_col jd lat) None = Some (rprod (map (fun r => power (fs r) (Rabs (row_coef r))) (rows_of k))) /\
  nth k (U_col jd lat) None = Some (rsum (map (fun r => row_coef r * us r) (rows_of k))).
Proof. exact shallow_polar. Qed.
Print Assumptions C78_shallow.

(** the matrix of basis functions, in every correction mode, for every constituent but M7 *)
Theorem C78_basis : forall t tref frq lind lat g, (forall k, In k lind -> (k < 146)%nat /\ k <> 117%nat) ->
  0 < Rabs lat <= 90 \/ NodsatNone g = true ->
  frq = map (fun k => Derive (arg k) tref / 24) lind ->
  ut_E t tref frq lind lat g = map (fun x => map (fun k => Some (tidal_basis g tref lat x k)) lind) t.
Proof. exact ut_E_tidal. Qed.
Print Assumptions C78_basis.

(** the contribution of one constituent to a reconstruction: amplitude times the real part of its rotating vector,
    delayed by the phase lag *)
Theorem C78_scalar_tide : forall c x r k A g, o_twodim (c_opt c) = false -> w_lind r = Some k -> w_A r = Some (Some A) -> w_g r = Some g ->
  (k < 146)%nat -> k <> 117%nat -> 0 < Rabs (c_lat c) <= 90 \/ NodsatNone (flags_of (c_opt c)) = true ->
  tide c x r = Some (A * fst (Cmult (tidal_basis (flags_of (c_opt c)) (c_reftime c) (c_lat c) x k) (turn (- g / 360))), 0).
Proof. exact tide_scalar. Qed.
Print Assumptions C78_scalar_tide.
(** or the ellipse it drives *)
Theorem C78_vector_tide : forall c x r k a b th g, o_twodim (c_opt c) = true -> w_lind r = Some k ->
  w_Lsmaj r = Some (Some a) -> w_Lsmin r = Some (Some b) -> w_theta r = Some (Some th) -> w_g r = Some g ->
  (k < 146)%nat -> k <> 117%nat -> 0 < Rabs (c_lat c) <= 90 \/ NodsatNone (flags_of (c_opt c)) = true ->
  tide c x r = Some (rotary a b th (Cmult (tidal_basis (flags_of (c_opt c)) (c_reftime c) (c_lat c) x k) (turn (- g / 360)))).
Proof. exact tide_vector. Qed.
Print Assumptions C78_vector_tide.

(** M2 has nine satellites; the fourth has ratio 0.0373 and follows the lunar node, half a cycle off *)
Example C78_example_M2 : is_primary 47 /\ satellites 47 = [128; 129; 130; 131; 132; 133; 134; 135; 136]%nat /\
  (forall jd, satellite_phase 131 jd = - node jd + 1 / 2) /\ (Qle (372 # 10000) (nth 131 sat_amprat 0%Q) /\ Qle (nth 131 sat_amprat 0%Q) (374 # 10000)).
Proof.
  split; [exact L_Harm2.M2_is_primary|]. split; [vm_compute; reflexivity|]. split; [|split; vm_compute; discriminate].
  intros jd. unfold satellite_phase.
  assert (E1 : nth 131 sat_deldood [] = [0; -1; 0]%Z) by (vm_compute; reflexivity). assert (E2 : nth 131 sat_phcorr 0%Q = (1 # 2)%Q) by (vm_compute; reflexivity).
  rewrite E1, E2. cbn [nth]. unfold Q2R. cbn [Qnum Qden]. generalize (perigee jd) (node jd) (perihelion jd). intros. lra.
Qed.
(** MS4 has the product of the corrections of M2 and S2 *)
Example C78_example_MS4 : forall lat jd, nodal lat jd 85 = cprod [nodal_primary lat jd 47; nodal_primary lat jd 56].
Proof.
  intros lat jd. assert (E1 : rows_of 85 = [100; 101]%nat) by (vm_compute; reflexivity).
  assert (E2 : nth 85 const_ishallow None = Some 101%nat) by (vm_compute; reflexivity).
  assert (E3 : row_parent 100 = 47%nat /\ row_parent 101 = 56%nat /\ row_mult 100 = 1%Z /\ row_mult 101 = 1%Z) by (vm_compute; auto).
  unfold nodal. rewrite E1, E2. cbn [map]. destruct E3 as (-> & -> & -> & ->).
  generalize (nodal_primary lat jd 47) (nodal_primary lat jd 56). intros a b. unfold cpow. change (Z.ltb 1 0) with false. change (Z.abs_nat 1) with 1%nat.
  cbn [repeat cprod fold_right]. apply C_eq; cbn; ring.
Qed.
