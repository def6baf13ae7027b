(** Properties C21-C29: astronomical arguments, frequencies, nodal corrections, basis functions, noise bands. *)
From Coq Require Import Lia Lra.
From Coquelicot Require Import Coquelicot.
From Verif Require Import M_Base M_Tables M_Const M_Harmonics M_Period M_Conf S_Tables S_Basis S_Harm L_Tables L_Harm L_Harm2 L_Harm3 L_Bands
  L_Basis L_Basis2 L_Recon4 L_Nodal3.
Open Scope R_scope.

(** C21.  The rates are the time derivatives of the unwrapped variables, and the variables themselves differ from the
    unwrapped ones by whole cycles. *)
Theorem C21_rates : forall jd i, (i < 6)%nat -> is_derive (astro_var i) jd (nth i (ader jd) 0).
Proof. exact astro_derive. Qed.
Print Assumptions C21_rates.
Theorem C21_wrapped : forall jd i, (i < 6)%nat -> is_integer (nth i (astro jd) 0 - astro_var i jd).
Proof. exact astro_wrap. Qed.
Print Assumptions C21_wrapped.
(** six variables, six rates *)
Example C21_example : forall jd, length (astro jd) = 6%nat /\ length (ader jd) = 6%nat.
Proof. intros jd. split; [apply astro_len|apply ader_len]. Qed.

(** C22.  Wrapping is invisible, except for M7 (number 117) *)
Theorem C22_wrapping_invisible : forall f u jd k, (k < 146)%nat -> k <> 117%nat ->
  wave f u (nth k (V_col jd) None) = wave f u (Some (arg k jd)).
Proof. exact wave_exact. Qed.
Print Assumptions C22_wrapping_invisible.
(** at two times half a day apart the M7 argument is right, and off by half a cycle *)
Theorem C22_M7_refuted :
  nth_error const_name 117 = Some "M7"%string /\
  (exists v, nth 117 (V_col 693596) None = Some v /\ cos (2 * PI * (v - arg 117 693596)) = 1) /\
  (exists v, nth 117 (V_col 693595.5) None = Some v /\ cos (2 * PI * (v - arg 117 693595.5)) = -1).
Proof. exact M7_two_times. Qed.
Print Assumptions C22_M7_refuted.
(** so its basis function is not continuous in time *)
Theorem C22_M7_jumps : exists jd, ~ (continuous (fun x => cos (2 * PI * V7 x)) jd /\ continuous (fun x => sin (2 * PI * V7 x)) jd).
Proof. exact M7_jump. Qed.
Print Assumptions C22_M7_jumps.
Example C22_example : nth_error const_name 47 = Some "M2"%string /\ arg_primary 47 693595.5 = 2 * lunar_time 693595.5.
Proof. split; [exact (proj2 (proj2 M7_row))|apply M2_arg]. Qed.

(** C23.  Linearised frequencies (cycles per hour) *)
Theorem C23_derivative : forall tref k, (k < 146)%nat ->
  is_derive (arg k) tref (24 * nth k (linearized_freqs tref) 0).
Proof. exact lin_derive. Qed.
Print Assumptions C23_derivative.
Theorem C23_shallow : forall tref k, is_shallow k ->
  nth k (linearized_freqs tref) 0 = rsum (map (fun r => nth (row_parent r) (linearized_freqs tref) 0 * row_coef r) (rows_of k)).
Proof. exact lin_freq_eq. Qed.
Print Assumptions C23_shallow.
(** M7 = 3.5 M2 *)
Example C23_example : rows_of 117 = [178%nat] /\ row_parent 178 = 47%nat /\ row_coef 178 = 7 / 2.
Proof. split; [exact M7_rows|]. split; [exact M7_parent|exact M7_coef]. Qed.

(** C24.  Phase modes: exact at the reference time; linear = tangent line; raw = tangent line through zero *)
Theorem C24_modes : forall tref x k g, (k < 146)%nat -> exists v,
  nth k (V_col tref) None = Some v /\
  (GwchNone g = false -> GwchLint g = true -> V_at g tref x k = Some (v + (x - tref) * Derive (arg k) tref)) /\
  (GwchNone g = true -> V_at g tref x k = Some ((x - tref) * Derive (arg k) tref)) /\
  (GwchNone g = false -> GwchLint g = false -> V_at g tref tref k = Some v).
Proof. exact V_modes. Qed.
Print Assumptions C24_modes.
Example C24_example : exists v, V_at {| NodsatLint := false; NodsatNone := false; GwchLint := true; GwchNone := false |} 730000 730000 47 = Some v /\
  nth 47 (V_col 730000) None = Some v.
Proof.
  destruct (V_modes 730000 730000 47 {| NodsatLint := false; NodsatNone := false; GwchLint := true; GwchNone := false |} ltac:(lia)) as (v & E & H & _).
  exists v. split; [|exact E]. rewrite (H eq_refl eq_refl). f_equal. generalize (Derive (arg 47) 730000). intros d. ring.
Qed.

(** C25.  The shortcut agrees with the general path *)
Theorem C25_shortcut : forall t tref lind lat g, ut_E t tref (sel_freq tref lind) lind lat g =
  let '(F, U, V) := FUV t tref lind lat g in E_rows (bcast (length t) F) (bcast (length t) U) (bcast (length t) V).
Proof. exact shortcut_lemma. Qed.
Print Assumptions C25_shortcut.
(** both are, entry by entry, F exp (2 i pi (U + V)) *)
Theorem C25_entries : forall t tref lind lat g,
  ut_E t tref (sel_freq tref lind) lind lat g = map (fun x => map (basis_at g tref lat x) lind) t.
Proof. exact ut_E_rows. Qed.
Print Assumptions C25_entries.
Example C25_example : forall t, ut_E t 730000 (sel_freq 730000 [47%nat]) [47%nat] 45
    {| NodsatLint := false; NodsatNone := true; GwchLint := false; GwchNone := true |} =
  map (fun x => [wave (Some 1) (Some 0) (Some (24 * (x - 730000) * nth 47 (linearized_freqs 730000) 0))]) t.
Proof. intros t. exact (ut_E_rows t 730000 [47%nat] 45 _). Qed.

(** C26.  Nodal corrections are finite away from the equator, amplitude factors non-negative *)
Theorem C26_finite : forall jd lat k, 0 < Rabs lat <= 90 -> (k < 146)%nat ->
  (exists f, nth k (F_col jd lat) None = Some f /\ 0 <= f) /\ (exists u, nth k (U_col jd lat) None = Some u).
Proof. exact (fun jd lat k Hl Hk => conj (F_finite jd lat k (slat_nz lat Hl) Hk) (U_finite jd lat k (slat_nz lat Hl) Hk)). Qed.
Print Assumptions C26_finite.
(** within five degrees: as at five degrees *)
Theorem C26_near_equator : forall jd lat, 0 < Rabs lat < 5 ->
  F_col jd lat = F_col jd (if Rlt_dec 0 lat then 5 else -5) /\ U_col jd lat = U_col jd (if Rlt_dec 0 lat then 5 else -5).
Proof. exact near_equator. Qed.
Print Assumptions C26_near_equator.
(** on the equator: not finite, at any time, for every primary constituent that has a satellite with the diurnal factor *)
Theorem C26_equator_refuted : forall jd k, is_primary k -> diurnal_satellite k ->
  nth k (F_col jd 0) None = None /\ nth k (U_col jd 0) None = None.
Proof. exact F_equator. Qed.
Print Assumptions C26_equator_refuted.
Example C26_example : nth_error const_name 20 = Some "K1"%string /\ diurnal_satellite 20 /\ is_primary 20.
Proof. split; [vm_compute; reflexivity|exact K1_diurnal]. Qed.

(** C27.  nodal=False and nodal='linear_time' *)
Theorem C27_none : forall t tref lind lat g, NodsatNone g = true -> exists V,
  FUV t tref lind lat g = (repeat (repeat (Some 1) (length lind)) (length t), repeat (repeat (Some 0) (length lind)) (length t), V).
Proof. exact no_nodal. Qed.
Print Assumptions C27_none.
Theorem C27_linear : forall t tref lind lat g, NodsatNone g = false -> NodsatLint g = true ->
  fst (FUV t tref lind lat g) =
  fst (FUV [tref] tref lind lat {| NodsatLint := false; NodsatNone := false; GwchLint := GwchLint g; GwchNone := GwchNone g |}).
Proof. exact linear_nodal. Qed.
Print Assumptions C27_linear.
(** in the basis functions *)
Theorem C27_basis : forall tref lat x k g,
  (NodsatNone g = true -> F_at g tref lat x k = Some 1 /\ U_at g tref lat x k = Some 0) /\
  (NodsatNone g = false -> NodsatLint g = true ->
   F_at g tref lat x k = nth k (F_col tref lat) None /\ U_at g tref lat x k = nth k (U_col tref lat) None) /\
  (NodsatNone g = false -> NodsatLint g = false ->
   F_at g tref lat x k = nth k (F_col x lat) None /\ U_at g tref lat x k = nth k (U_col x lat) None).
Proof. exact nodal_basis. Qed.
Print Assumptions C27_basis.
(** in the matrix itself: unit modulus without nodal correction, the same modulus at all times with the linearised one *)
Theorem C27_unit_modulus : forall t tref lind lat g, NodsatNone g = true -> (forall k, In k lind -> (k < 146)%nat) ->
  forall row e, In row (ut_E t tref (sel_freq tref lind) lind lat g) -> In e row -> exists z, e = Some z /\ Cmod z = 1.
Proof. exact modulus_none. Qed.
Print Assumptions C27_unit_modulus.
Theorem C27_constant_modulus : forall tref lind lat g, NodsatNone g = false -> NodsatLint g = true -> 0 < Rabs lat <= 90 ->
  (forall k, In k lind -> (k < 146)%nat) ->
  exists fs, length fs = length lind /\ forall t row, In row (ut_E t tref (sel_freq tref lind) lind lat g) ->
  exists zs, row = map Some zs /\ map Cmod zs = fs.
Proof. exact modulus_linear. Qed.
Print Assumptions C27_constant_modulus.
Example C27_example : forall x, F_at {| NodsatLint := false; NodsatNone := true; GwchLint := true; GwchNone := false |} 730000 45 x 47 = Some 1.
Proof. reflexivity. Qed.

(** C28.  Time by time *)
Theorem C28_rowwise : forall tref frq lind lat g, exists f, forall t, ut_E t tref frq lind lat g = map f t.
Proof. exact rowwise. Qed.
Print Assumptions C28_rowwise.
Example C28_example : forall a b tref frq lind lat g,
  ut_E (a ++ b) tref frq lind lat g = (ut_E a tref frq lind lat g ++ ut_E b tref frq lind lat g)%list.
Proof. intros a b tref frq lind lat g. destruct (rowwise tref frq lind lat g) as [f H]. rewrite !H. apply map_app. Qed.

(** C29.  Noise bands: one band for every constituent but Z0, within 1000 years of 1900 *)
Theorem C29_one_band : forall tref k, (0 < k < 146)%nat -> Rabs (tref - 693595.5) <= 365250 ->
  exists b, (b < 9)%nat /\ forall j, (j < 9)%nat -> (in_band (nth j bands (0, 0)) (nth k (linearized_freqs tref) 0) <-> j = b).
Proof. exact one_band. Qed.
Print Assumptions C29_one_band.
(** its noise level is that of the band *)
Theorem C29_level : forall P f b, length P = 9%nat -> (b < 9)%nat -> in_band (nth b bands (0, 0)) f ->
  band_level P f = nth b P (Fin 0).
Proof. exact lookup_band. Qed.
Print Assumptions C29_level.
(** Z0 has none *)
Theorem C29_Z0 : forall P tref, nth 0 (linearized_freqs tref) 0 = 0 /\ band_level P (nth 0 (linearized_freqs tref) 0) = Fin 0.
Proof. exact (fun P tref => conj (Z0_zero tref) (lookup_none P _ (fun j Hj => Z0_no_band tref j Hj))). Qed.
Print Assumptions C29_Z0.
Example C29_example : Rabs (730120 - 693595.5) <= 365250.
Proof. rewrite Rabs_pos_eq; lra. Qed.
