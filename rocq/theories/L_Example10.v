(** A concrete run with coloured noise and Monte-Carlo intervals: four hourly values. *)
From Coq Require Import QArith Qreals Lia Lra Permutation.
From Coquelicot Require Import Coquelicot.
From Verif Require Import M_Base M_Lib M_Tables M_Const M_Options M_Time M_Slvinit M_Harmonics M_Select M_Ellipse
  M_Robust M_Period M_Conf M_Diag M_Solve M_Recon S_Dict S_Options S_Slv S_Order S_Basis S_Tables S_Harm S_Select S_Fit S_Ellipse S_Recon S_Model S_Conf S_Errors S_Period S_Noise
  L_Base L_Options L_SolveInv L_OptSolve L_Slv L_Slv2 L_Tables L_Order L_Select L_Fit L_Align L_SelOrder L_Order2 L_Order3 L_Harm L_Bands L_Example L_Angle L_Core L_Ellipse L_Ellipse2
  L_Nodal3 L_Model3 L_Model6 L_Model9 L_Model11 L_Period L_Period9 L_Noise L_Noise2 L_Noise4 L_Example3 L_Example4 L_Example5 L_Example7 L_Example8 L_Sampled2 L_Example9.
Open Scope R_scope.
Open Scope string_scope.

(** ** the sampling step *)
Lemma fin_share P a s : s <> 0 -> xdiv (xmul (Fin P) (Fin a)) (Fin s) = Fin (P * a / s).
Proof. apply xr_share. Qed.
Lemma mc1_ok B0 x0 m0 c X Y g a b d tr P : tr <> 0 ->
  exists w, mc1 (hourL B0 x0 m0) c X Y g [[Fin a; Fin b]; [Fin b; Fin d]] (Fin tr) (Some (Fin P)) 200 = Ok w.
Proof.
  intros H. unfold mc1, rescale. cbn [map]. rewrite !fin_share by exact H. unfold need_finite, finite_mat. cbn [map finite all_some option_map bind].
  match goal with |- context [nearestSPD _ 2 ?A] => destruct (hour_nearest B0 x0 m0 2 A) as [r ->] end. cbn [bind hourL l_mvn].
  destruct (same_rows [X; Y] _ 199 eq_refl) as (e0 & l & ->). cbn [bind]. eauto.
Qed.
Lemma mc2_ok B0 x0 m0 c Xu Yu Xv Yv g th a b d a' b' d' e f h k tr tr' P Q S : tr <> 0 -> tr' <> 0 ->
  exists w, mc2 (hourL B0 x0 m0) c Xu Yu Xv Yv g th [[Fin a; Fin b]; [Fin b; Fin d]] [[Fin a'; Fin b']; [Fin b'; Fin d']] [[Fin e; Fin f]; [Fin h; Fin k]]
    (Fin tr) (Fin tr') (Some (Fin P, Fin Q, Fin S)) 200 = Ok w.
Proof.
  intros H H'. unfold mc2. cbv zeta. cbn [List.concat app map xabs xsum fold_right xadd].
  match goal with |- context [xlt (Fin 0) ?x] => set (s := x) end.
  assert (G : exists e' f' h' k', (if xlt (Fin 0) s then rescale (Fin S) [[Fin e; Fin f]; [Fin h; Fin k]] s else [[Fin 0; Fin 0]; [Fin 0; Fin 0]]) = [[Fin e'; Fin f']; [Fin h'; Fin k']]).
  { destruct (xlt (Fin 0) s) eqn:E; [|eauto]. unfold rescale. cbn [map].
    match goal with s := Fin ?y |- _ => assert (N : y <> 0) by (intros Z; unfold s in E; rewrite (xlt_zero _ Z) in E; discriminate); unfold s; rewrite !fin_share by exact N end. do 4 eexists. reflexivity. }
  cbn [map]. destruct G as (e' & f' & h' & k' & ->). unfold rescale. cbn [map]. rewrite !fin_share by assumption.
  unfold need_finite, finite_mat, block4, transp2. cbn [map nth combine app fst snd finite all_some option_map bind].
  match goal with |- context [nearestSPD _ 4 ?A] => destruct (hour_nearest B0 x0 m0 4 A) as [r ->] end. cbn [bind hourL l_mvn].
  destruct (same_rows [Xu; Yu; Xv; Yv] _ 199 eq_refl) as (e0 & l & ->). cbn [bind]. eauto.
Qed.

(** ** times, frequency *)
Definition h_tref : R := / 2 * (0 + 3 / 24).
Definition hf : R := nth 47 (linearized_freqs h_tref) 0.
Definition h_t : pyarr tarray := NdArr [4%nat] (TNum (map Fin hourly)) [].
Lemma hf_range : 7 / 96 < hf < 8 / 96.
Proof.
  assert (P : is_primary 47) by (eexists; vm_compute; reflexivity).
  unfold hf. rewrite (lin_primary h_tref 47 [2; 0; 0; 0; 0; 0]%Z P) by (vm_compute; reflexivity).
  unfold doodson_sum. cbn [seq map fold_right nth]. rewrite ader_eq. cbv zeta. cbn [nth]. rewrite daten_val. unfold h_tref. lra.
Qed.
Definition ph : R := PI * hf.
Lemma ph_range : 0 < ph /\ 3 * ph < PI / 2.
Proof. assert (F := hf_range). assert (P := PI_RGT_0). unfold ph. split; nra. Qed.
Lemma sin_ph : sin ph <> 0.
Proof. assert (H := ph_range). apply Rgt_not_eq, sin_gt_0; lra. Qed.
Lemma cos_ph : cos ph <> cos (3 * ph).
Proof. assert (H := ph_range). apply Rgt_not_eq. apply cos_decreasing_1; lra. Qed.
Lemma unit_ph x : cos x ^ 2 + sin x ^ 2 = 1.
Proof. assert (S := sin2_cos2 x). unfold Rsqr in S. lra. Qed.
Notation B4 := (rows4 (cos (3 * ph)) (cos ph) (cos ph) (cos (3 * ph)) (- sin (3 * ph)) (- sin ph) (sin ph) (sin (3 * ph))).

Definition h_sel : sel :=
  {| s_NRname := ["M2"]; s_NRlind := [47%nat]; s_NRarr := false; s_NRfrq := [hf]; s_R := []; s_name := ["M2"]; s_frq := [hf];
     s_lind := [47%nat]; s_nNR := 1; s_nR := 0; s_nI := 0 |}.
Lemma h_select m : ut_cnstitsel h_tref m (PSeq [PStr "M2"]) None = Ok h_sel.
Proof.
  unfold ut_cnstitsel, initial_lind. cbn [eq_str as_names mapM bind]. rewrite M2_index. cbn [bind].
  assert (F : take_idx (linearized_freqs h_tref) [47%nat] = Ok [hf]).
  { apply take_idx_intro. cbn [map]. assert (L := lin_len h_tref). unfold hf. revert L. generalize (linearized_freqs h_tref). intros l L.
    rewrite (nth_error_nth' l 0 (n := 47)) by lia. reflexivity. }
  rewrite F. cbn [bind].
  assert (N : take_idx const_name [47%nat] = Ok ["M2"]) by (vm_compute; reflexivity). rewrite N. cbn [bind]. reflexivity.
Qed.
Lemma h_wave x y : (0 + 24 * (x - h_tref) * hf) * (2 * PI) = y -> E_entry (Some 1) (Some 0) (Some (24 * (x - h_tref) * hf)) = Some ((cos y, sin y) : C).
Proof. intros <-. unfold E_entry. cbn [oadd]. rewrite Cmult_1_l. reflexivity. Qed.
Lemma h_basis o lor lat : o_nodsatnone o = true -> o_gwchnone o = true -> o_notrend o = true -> o_infer o = None ->
  basis hourly h_tref lor lat o h_sel = Ok (map (map Some) B4).
Proof.
  intros H1 H2 H3 H4. unfold basis, bad_empty_index, flags_of. rewrite H3, H4. cbn [NodsatNone GwchNone]. rewrite H1, H2.
  cbn [andb negb bind]. rewrite andb_false_r. unfold ut_E. cbn [NodsatNone GwchNone andb].
  cbn [h_sel s_NRfrq s_R]. unfold ones, hourly. cbn [length repeat bcast map E_rows lin_arg E_row].
  rewrite (h_wave 0 (- (3 * ph))), (h_wave (1 / 24) (- ph)), (h_wave (2 / 24) ph), (h_wave (3 / 24) (3 * ph)) by (unfold h_tref, ph; field).
  unfold rows4. cbn [oconj option_map app map]. rewrite !cos_neg, !sin_neg. reflexivity.
Qed.
Lemma hourly_incr : increasing hourly.
Proof. intros [|[|[|i]]] H; cbn in *; try lra; lia. Qed.
Lemma hourly_even : equi_of hourly = true.
Proof.
  apply equi_close; [cbn; lia|]. intros a b Ha Hb.
  assert (E : forall x, In x (steps hourly) -> x = / 24) by (intros x Hx; cbn in Hx; intuition lra).
  rewrite (E a Ha), (E b Hb). assert (0 < 2 / 2 ^ 26) by (apply Rdiv_lt_0_compat; [lra|apply pow_lt; lra]). lra.
Qed.
Lemma hourly_ptp : ptp hourly = Ok (3 / 24).
Proof.
  unfold ptp, hourly, rmax, rmin, fold_left. f_equal.
  rewrite (Rmax_right 0 (1 / 24)), (Rmax_right (1 / 24) (2 / 24)), (Rmax_right (2 / 24) (3 / 24)), (Rmin_left 0 (1 / 24)), (Rmin_left 0 (2 / 24)), (Rmin_left 0 (3 / 24)) by lra. lra.
Qed.
Lemma hourly_elor : elor_of (3 / 24) 4 = Fin (4 / 24).
Proof. unfold elor_of. cbn. destruct (Req_EM_T _ _); [lra|]. f_equal. field. Qed.

(** ** finite noise levels *)
Lemma level_at T levels y near : Forall2 (nearest_bin [0; 0.25; 0.5]) [hf] near ->
  band_levels tidal_bands y [0; 0.25; 0.5] near levels -> forall p, noise_at T levels hf p -> exists P, p = Fin P.
Proof.
  intros NR BL p [N1 _]. assert (F := hf_range). apply hourly_near in NR; [|lra]. subst near.
  assert (exists m, nth 2 levels None = Some m) as [m Em].
  { unfold band_levels, tidal_bands in BL. revert BL. generalize y. intros P BL.
    inversion BL as [|? ? ? l1 _ B1]; subst. inversion B1 as [|? ? ? l2 _ B2]; subst. inversion B2 as [|? z ? l3 B _]; subst. cbn [nth].
    destruct z as [m|]; [eauto|exfalso]. destruct B as (idx & _ & I & ->). apply (proj2 (I 1%nat)). split.
    - split; [cbn; lia|]. cbn [fst snd]. split; [cbn; lra|]. intros j Hj. replace j with 0%nat by lia. cbn. lra.
    - cbn. lia. }
  revert F N1. generalize hf. intros f F N1.
  rewrite (N1 2%nat); [|lia|change (nth 2 tidal_bands (0, 0)) with (0.07218, 0.08884); cbn [fst snd]; lra]. rewrite Em. cbn [power_of]. eauto.
Qed.
Lemma h_psd L eu ev tw : length eu = 4%nat -> (forall v, ev = Some v -> length v = 4%nat) -> (tw = true -> ev <> None) ->
  exists P q, band_averaged_psd_by_constit L hourly hourly eu ev (Fin (4 / 24)) [hf] true tw = Ok ([Fin P], q) /\
    (tw = true -> exists Q S, q = Some ([Fin Q], [Fin S])).
Proof.
  intros Hu Hv Ht. unfold band_averaged_psd_by_constit. change (Nat.ltb (length hourly) (length hourly)) with false. cbn [andb]. cbv iota zeta.
  replace (option_map (fun e : list R => e) ev) with ev by (destruct ev; reflexivity).
  destruct (band_even' L hourly eu ev [hf]) as (near & p & NR & E & BL & BV); [exact Hu|exact Hv|cbn; lia|cbn; lra|]. cbv zeta in *.
  rewrite E. cbn [bind map]. assert (N9 := band_psd_nine _ _ _ _ _ _ _ E). destruct N9 as (N1 & N2 & N3).
  assert (EE : forall x, length x = 4%nat -> length (even_part x) = 4%nat).
  { intros x Hx. unfold even_part. rewrite Hx. rewrite firstn_all2 by (cbn; lia). exact Hx. }
  rewrite (EE _ Hu) in *. change (nth 1 hourly 0) with (1 / 24) in *. change (nth 0 hourly 0) with 0 in *. rewrite hourly_grid in *.
  assert (HT : 0 < 4 / 24) by lra.
  destruct (level_at (4 / 24) _ _ _ NR BL _ (level_noise (4 / 24) (b_Puu p) hf HT N1)) as [P EP].
  rewrite EP. exists P. destruct tw; [|exists None; split; [reflexivity|discriminate]].
  destruct ev as [v|]; [|exfalso; now apply Ht]. destruct BV as (q & r & E1 & E2 & B1 & B2). rewrite E1, E2.
  destruct (level_at (4 / 24) _ _ _ NR B1 _ (level_noise (4 / 24) q hf HT (N2 _ E1))) as [Q EQ].
  destruct (level_at (4 / 24) _ _ _ NR B2 _ (level_noise (4 / 24) r hf HT (N3 _ E2))) as [S ES].
  rewrite EQ, ES. eexists. split; [reflexivity|]. intros _. eauto.
Qed.

(** ** the run *)
Definition hour_opts (mc : bool) : dict pyval := (("conf_int", PStr (if mc then "MC" else "linear")) :: col_opts)%list.
Section Run.
Variables (mc tw : bool) (z a b c : C).
Hypothesis Hreal : tw = false -> snd z = 0 /\ b = Cconj a /\ snd c = 0.
Hypothesis Z1 : fst z <> 0.
Hypothesis Z2 : tw = true -> snd z <> 0.
Definition hn (i : nat) : R := nth i [- sin ph; sin (3 * ph); - sin (3 * ph); sin ph] 0.
Definition hdata : list C := noisy (cos (3 * ph)) (cos ph) (cos ph) (cos (3 * ph)) (- sin (3 * ph)) (- sin ph) (sin ph) (sin (3 * ph))
  (- sin ph) (sin (3 * ph)) (- sin (3 * ph)) (sin ph) z [a; b; c].
Definition hd4 (i : nat) : C := nth i hdata (RtoC 0).
Definition hL : lib := hourL B4 hdata [a; b; c].
Definition hu : pyarr (list xr) := four_u (hd4 0) (hd4 1) (hd4 2) (hd4 3).
Definition hv : option (pyarr (list xr)) := four_v tw (hd4 0) (hd4 1) (hd4 2) (hd4 3).
Definition hsm : list (R * C) := combine hourly (zs (hd4 0) (hd4 1) (hd4 2) (hd4 3)).
Lemma hd_all : zs (hd4 0) (hd4 1) (hd4 2) (hd4 3) = hdata. Proof. reflexivity. Qed.
Lemma h_real : tw = false -> forall y, In y (zs (hd4 0) (hd4 1) (hd4 2) (hd4 3)) -> snd y = 0.
Proof.
  intros T. destruct (Hreal T) as (H1 & H2 & H3). intros y Hy. unfold zs, hd4, hdata, noisy, rows4 in Hy. cbn [map combine nth fst snd In] in Hy.
  subst b. destruct z as [z1 z2], a as [a1 a2], c as [c1 c2]. cbn [snd] in H1, H3. subst z2 c2.
  repeat (destruct Hy as [<-|Hy]; [unfold cdot, csum; cbn [map combine fold_right fst snd]; cbv [Cmult Cplus Cconj RtoC fst snd]; ring|]). destruct Hy.
Qed.
Lemma h_slv : exists si,
  slvinit (fun _ => None) h_t hu hv (Some 45) (PStr "python") = Ok si /\
  si_t si = hourly /\ si_tref si = h_tref /\ raw_data (si_u si) (si_v si) = hdata /\ si_lor si = 3 / 24 /\ si_equi si = true /\ si_tin si = hourly /\ si_elor si = Fin (4 / 24).
Proof.
  assert (RL := h_real). rewrite hd_all in RL.
  unfold slvinit, hu, hv, four_u, four_v. destruct tw.
  - replace (check_args _ _ _ _) with (Ok tt : res unit) by reflexivity. cbn [bind].
    replace (normalize_time _ _ _) with (Ok (map Fin hourly)) by reflexivity. cbn [bind]. unfold slv_core.
    replace (clean _ _ _) with (hourly, hourly, map fst hdata, Some (map snd hdata)) by reflexivity.
    rewrite hourly_even, hourly_ptp. cbn [bind]. eexists. split; [reflexivity|]. cbn [si_t si_tref si_u si_v si_lor si_equi si_tin si_elor raw_data].
    repeat split; first [apply combine_fst_snd|exact hourly_elor].
  - replace (check_args _ _ _ _) with (Ok tt : res unit) by reflexivity. cbn [bind].
    replace (normalize_time _ _ _) with (Ok (map Fin hourly)) by reflexivity. cbn [bind]. unfold slv_core.
    replace (clean _ _ _) with (hourly, hourly, map fst hdata, @None (list R)) by reflexivity.
    assert (E : map RtoC (map fst hdata) = hdata).
    { rewrite map_map. transitivity (map (fun z : C => z) hdata); [|apply map_id]. apply map_ext_in. intros y Hy. unfold RtoC.
      apply injective_projections; cbn; [reflexivity|]. symmetry. now apply RL. }
    rewrite hourly_even, hourly_ptp. cbn [bind]. eexists. split; [reflexivity|]. cbn [si_t si_tref si_u si_v si_lor si_equi si_tin si_elor raw_data].
    repeat split; first [exact E|exact hourly_elor].
Qed.
Lemma h_samples : samples (fun _ => None) (PStr "python") h_t hu hv hsm.
Proof.
  assert (RL := h_real). unfold hu, hv, h_t, hsm, four_u, four_v, zs in *. revert RL. generalize (hd4 0), (hd4 1), (hd4 2), (hd4 3).
  intros [p0 q0] [p1 q1] [p2 q2] [p3 q3] RL. cbn [map fst snd].
  destruct tw.
  - exact (vector_samples (fun _ => None) (PStr "python") 4 (TNum (map Fin hourly)) [] [Fin p0; Fin p1; Fin p2; Fin p3] [] [Fin q0; Fin q1; Fin q2; Fin q3] [] (map Fin hourly)
      (conj eq_refl (or_introl eq_refl)) (conj eq_refl (or_introl eq_refl)) eq_refl eq_refl).
  - assert (R0 := RL eq_refl _ (or_introl eq_refl)). assert (R1 := RL eq_refl _ (or_intror (or_introl eq_refl))).
    assert (R2 := RL eq_refl _ (or_intror (or_intror (or_introl eq_refl)))). assert (R3 := RL eq_refl _ (or_intror (or_intror (or_intror (or_introl eq_refl))))).
    cbn [snd] in R0, R1, R2, R3. rewrite R0, R1, R2, R3.
    exact (scalar_samples (fun _ => None) (PStr "python") 4 (TNum (map Fin hourly)) [] [Fin p0; Fin p1; Fin p2; Fin p3] [] (map Fin hourly)
      (conj eq_refl (or_introl eq_refl)) eq_refl eq_refl).
Qed.
Notation hmod := (xmod4 (cos ph) (cos (3 * ph)) (sin ph) (sin (3 * ph)) a b c).
Lemma h_model : model_fit tw B4 [a; b; c] = hmod.
Proof.
  unfold model_fit. destruct tw; [reflexivity|]. destruct (Hreal eq_refl) as (_ & H2 & H3). unfold xmod4, cmatvec, rows4. cbn [map]. rewrite !cdot3.
  subst b. destruct a as [a1 a2], c as [c1 c2]. cbn [snd] in H3. subst c2.
  repeat (apply f_equal2; [apply C_eq; cbv [RtoC Cmult Cplus Cconj fst snd]; ring|]). reflexivity.
Qed.
Lemma h_conf o si xs : o_white o = false -> o_nrlzn o = 200%nat -> o_infer o = None -> o_equi o = true -> o_twodim o = tw ->
  si_t si = hourly -> si_tin si = hourly -> si_elor si = Fin (4 / 24) -> length xs = 1%nat ->
  exists cis, confidence hL o h_sel (si_tin si) (si_t si) (resid_parts (o_twodim o) ex_W hdata hmod) (si_elor si) hdata hmod ex_W B4 3 xs = Ok cis.
Proof.
  intros H1 Hn H3 H4 Ht H5 H6 H7 Hx. unfold confidence. rewrite H1, H3, H4, H5, H6, H7, Ht.
  assert (RP : exists eu ev, resid_parts tw ex_W hdata hmod = Some (eu, ev) /\ length eu = 4%nat /\ (forall v, ev = Some v -> length v = 4%nat) /\ (tw = true -> ev <> None)).
  { unfold resid_parts. change (all_finite ex_W) with (Some [1; 1; 1; 1]). do 2 eexists. split; [reflexivity|].
    assert (LL : forall f : C -> R, length (map f (map (fun p => Cmult (RtoC (fst p)) (snd p)) (combine [1; 1; 1; 1] (map (fun p => Cminus (fst p) (snd p)) (combine hdata hmod))))) = 4%nat).
    { intros f. reflexivity. }
    split; [apply LL|]. split.
    - intros v Hv. destruct tw; [|discriminate]. unfold oif in Hv. apply Some_inj in Hv. rewrite <- Hv. apply LL.
    - intros T. rewrite T. discriminate. }
  destruct RP as (eu & ev & -> & L1 & L2 & L3). destruct (h_psd hL eu ev tw L1 L2 L3) as (P & q & E & HQ). change (s_frq h_sel) with [hf]. rewrite E. cbn [bind].
  destruct (gammas_val (cos ph) (cos (3 * ph)) (sin ph) (sin (3 * ph)) z a b c (unit_ph _) (unit_ph _) sin_ph cos_ph) as (gC & gP & G & B1 & B2).
  assert (G' : gammas hL B4 3 ex_W hdata hmod = Ok (Some (gC, gP))) by exact G. rewrite G'. cbn [bind]. clear G G'.
  destruct (traces (cos ph) (cos (3 * ph)) (sin ph) (sin (3 * ph)) z gC gP B1 B2) as [T1 T2].
  assert (AP := alp_pos (cos ph) (cos (3 * ph)) (sin ph) (sin (3 * ph)) (unit_ph _) (unit_ph _) sin_ph cos_ph).
  assert (NP := nn_pos (sin ph) (sin (3 * ph)) sin_ph).
  set (al' := alp _ _ _ _) in *. set (n' := nn _ _) in *. clearbody al' n'.
  assert (V1 : 4 * al' * n' * fst z ^ 2 <> 0) by (apply Rgt_not_eq; assert (0 < fst z ^ 2) by (apply pow2_gt_0; exact Z1); apply Rmult_lt_0_compat; [nra|assumption]).
  assert (V2 : tw = true -> 4 * al' * n' * snd z ^ 2 <> 0).
  { intros T. apply Rgt_not_eq; assert (0 < snd z ^ 2) by (apply pow2_gt_0; exact (Z2 T)); apply Rmult_lt_0_compat; [nra|assumption]. }
  destruct xs as [|x [|]]; try discriminate. clear Hx. cbn [length mapM_idx].
  assert (CO : exists w, conf_one hL o (Some (gC, gP)) (Some ([Fin P], q)) 1 0 (x_Xu x) (x_Yu x) (x_Xv x) (x_Yv x) (x_g x) (x_theta x) = Ok w).
  { unfold conf_one. destruct (o_linci o); [eauto|]. rewrite Ht, Hn. cbv zeta. cbn [xadd]. rewrite T1, T2. cbn [n_uu n_vv n_uv option_map fst snd nth_x nth].
    destruct tw.
    - destruct (HQ eq_refl) as (Q & S & ->). cbn [option_map fst snd nth_x nth]. apply mc2_ok; [exact V1|exact (V2 eq_refl)].
    - apply mc1_ok. exact V1. }
  destruct CO as [w ->]. cbn [bind]. eauto.
Qed.
Lemma h_residual : map (fun p => Cminus (snd (fst p)) (vis1 tw (cdot (snd p) [a; b; c]))) (combine hsm B4) =
  map (fun i => Cmult (RtoC (hn i)) z) [0; 1; 2; 3]%nat.
Proof.
  assert (V : forall x y, vis1 tw (cdot [(x, y); Cconj (x, y); RtoC 1] [a; b; c]) = cdot [(x, y); Cconj (x, y); RtoC 1] [a; b; c]).
  { intros x y. unfold vis1. destruct tw; [reflexivity|]. destruct (Hreal eq_refl) as (_ & -> & Hc). unfold RtoC. apply injective_projections; [reflexivity|]. cbn [fst snd].
    destruct a as [a1 a2], c as [c1 c2]. cbn [snd] in Hc. subst c2. unfold cdot, csum. cbn [combine map fold_right fst snd]. cbv [Cmult Cplus Cconj RtoC fst snd]. ring. }
  unfold hsm, zs, hd4, hdata, noisy, rows4, hourly, hn. cbn [map combine nth fst snd]. rewrite !V.
  assert (SA : forall p q, Cminus (Cplus p q) p = q) by (intros; ring). rewrite !SA. reflexivity.
Qed.
Lemma h_minimises : lstsq_minimises hL.
Proof.
  refine (noisy_minimises _ _ _ _ _ _ _ _ _ _ _ _ z _ _ _ a b c); ring.
Qed.
Lemma h_shape : lstsq_shape hL.
Proof. exact (noisy_shape _ _ _ _ _ _ _ _ _ _ _ _ z a b c). Qed.
Lemma h_diag o k : aligned k -> (exists E, energies k = Ok E) -> (exists N, noises k = Ok N) ->
  exists pe sn d, diag_stage hL o k = Ok (if o_nodiagn o then k else set_diag k (Some pe) (Some sn) (Some d)).
Proof. exact (diag_ok [] o k). Qed.

Lemma h_run : exists k, analysis hL h_t hu hv (Some 45) (hour_opts mc) hsm k /\
  o_twodim (c_opt k) = tw /\ o_equi (c_opt k) = true /\ o_notrend (c_opt k) = true /\ o_epoch (c_opt k) = PStr "python" /\ c_name k = ["M2"] /\
  residuals k hsm (map (fun i => Cmult (RtoC (hn i)) z) [0; 1; 2; 3]%nat) /\
  exists r, In r (rows k) /\ w_lind r = Some 47%nat /\ w_frq r = Some hf /\ w_g r = Some (e_g (ellipse_of tw a b)) /\
    (tw = false -> w_A r = Some (Some (e_maj (ellipse_of tw a b)))) /\
    (tw = true -> w_Lsmaj r = Some (Some (e_maj (ellipse_of tw a b))) /\ w_Lsmin r = Some (Some (e_min (ellipse_of tw a b)))) /\ rows k = [r].
Proof.
  assert (Hu : unique_keys (hour_opts mc)) by unique_tac.
  destruct (process_opts (hour_opts mc) tw) as [compat|] eqn:E; [|destruct mc, tw; discriminate].
  destruct h_slv as (si & S1 & S2 & S3 & S4 & S5 & S6 & S7 & S8).
  destruct (read_opt (slv_opts tw (si_equi si) compat)) as [o|] eqn:E2; [|destruct mc, tw; injection E as <-; discriminate].
  destruct (used_options (hour_opts mc) tw (si_equi si) Hu compat o E E2) as
   (_ & _ & O2 & O3 & _ & U2 & U3 & U4 & U5 & U6 & _ & U7 & _ & U8 & Ur & U9 & U10 & _ & U14 & _ & (inf & U11 & U12) & U13 & U15).
  assert (P2 : oget compat "epoch" = PStr "python") by (destruct mc, tw; injection E as <-; reflexivity).
  cbn in U2, U3, U4, U5, U6, U7, U8, Ur, U9, U10, U11, U13, U14. injection U11 as <-. injection U12 as U12.
  assert (O6 : o_infer o = None) by congruence. assert (O8 : o_ordercnstit o = PStr "frequency") by congruence.
  assert (F : fit hL (si_t si) (si_u si) (si_v si) (si_tref si) (si_lor si) 45 o h_sel = Ok (B4, hdata, [a; b; c], ex_W)).
  { unfold fit. rewrite S2, S3, S5, h_basis by (assumption || congruence). cbn [bind]. rewrite finite_some, U10, S4. cbn [eq_str String.eqb Ascii.eqb Bool.eqb].
    unfold hL. cbn [hourL noisyL l_lstsq]. destruct (list_eq_dec _ B4 B4) as [_|N]; [|now exfalso]. destruct (list_eq_dec _ hdata hdata) as [_|N]; [|now exfalso]. reflexivity. }
  assert (O11 : ut_cnstitsel h_tref (xdiv (Fin (o_rmin o)) (Fin (24 * (3 / 24)))) (o_cnstit o) (o_infer o) = Ok h_sel) by (rewrite U5, O6; apply h_select).
  assert (SL := sel_lens_ok _ _ _ _ _ O11).
  assert (A1 : forall c1, ci_stage hL o h_sel si 45 B4 hdata [a; b; c] ex_W = Ok c1 -> aligned c1).
  { intros c1 H. refine (proj1 (ci_stage_aligned _ _ _ _ _ _ _ _ _ _ SL _ _ H)); [cbn; lia|reflexivity]. }
  assert (CS : exists cis, ci_stage hL o h_sel si 45 B4 hdata [a; b; c] ex_W =
    Ok (set_ci (coef_core (si_tref si) (si_lor si) 45 o h_sel [a; b; c] ex_W) (o_twodim o) cis)).
  { unfold ci_stage. replace (o_conf_int o) with true by (rewrite U2; destruct mc; reflexivity). rewrite U6. cbn [s_nNR s_nR h_sel length Nat.add Nat.mul].
    assert (EM : model_fit (o_twodim o) B4 [a; b; c] = hmod) by (rewrite O2; exact h_model). rewrite EM.
    edestruct h_conf as [cis ->]; [exact U9|exact U15|exact O6|congruence|exact O2|exact S2|exact S7|exact S8|reflexivity|]. cbn [bind]. eauto. }
  destruct CS as [cis C1]. assert (A := A1 _ C1). clear A1. set (core := coef_core _ _ _ _ _ _ _) in *. set (c1 := set_ci core (o_twodim o) cis) in *.
  destruct (h_diag o c1 A) as (pe & sn & d & C2).
  { unfold energies, c1, core. cbn. destruct (o_twodim o); cbn; eauto. }
  { unfold noises, c1, core. cbn. destruct (o_twodim o); cbn; eauto. }
  replace (o_nodiagn o) with false in C2 by (rewrite U4; destruct mc; reflexivity). set (c2 := set_diag c1 _ _ _) in *.
  assert (SB2 : aligned c2). { refine (proj1 (diag_stage_aligned _ _ _ _ A C2)). }
  assert (Hi : forall i, In i (l_argsort hL (map Fin (c_frq c2))) -> (i < length (c_name c2))%nat).
  { intros i H. apply (argsort_in []) in H. rewrite map_length in H. destruct SB2 as (K & _). lia. }
  destruct (apply_order_ok c2 _ SB2 Hi) as [k Hk]. exists k.
  assert (C3 : reorder hL c2 (o_ordercnstit o) = Ok k).
  { rewrite reorder_eq, O8. unfold order_stage. cbn [eq_str String.eqb Ascii.eqb Bool.eqb bind fst snd]. exact Hk. }
  assert (T2 : is2d hv = tw) by (unfold hv, four_v; destruct tw; reflexivity).
  assert (SV : solve hL h_t hu hv (Some 45) (hour_opts mc) = Ok k).
  { rewrite <- P2 in S1. rewrite <- T2 in E, E2. rewrite <- S3, <- S5 in O11. exact (solve_intro hL _ _ _ _ _ _ _ _ _ _ _ _ _ _ _ _ E S1 E2 O11 F C1 C2 C3). }
  assert (SB := reorder_base _ _ _ _ C3). assert (SB1 := diag_stage_base _ _ _ _ C2).
  assert (AN : analysis hL h_t hu hv (Some 45) (hour_opts mc) hsm k).
  { constructor; auto.
    + apply h_shape.
    + exact (ex_perm []).
    + intros x Hx'.
      assert (HD : In "order_constit" (keys documented)) by (cbn; auto 20).
      assert (K := setting_val _ _ _ Hu HD Hx'). subst x. unfold sorted_order. cbn. auto.
    + exists (PStr "python"). split; [left; cbn; auto 20|]. apply h_samples.
    + discriminate. }
  assert (EO : c_opt k = o) by (rewrite (sb_opt _ _ SB), (sb_opt _ _ SB1); reflexivity).
  split; [exact AN|]. rewrite EO.
  destruct (reorder_rows hL _ _ _ (ex_perm []) SB2 (or_intror (or_intror O8)) C3) as [RP NP].
  split; [assumption|]. split; [congruence|]. split; [assumption|]. split; [congruence|]. split.
  { apply Permutation_length_1_inv. apply Permutation_sym. exact NP. }
  split.
  - destruct (analysis_run _ _ _ _ _ _ _ _ AN) as (_ & si' & la' & s' & B' & xraw' & m' & W' & BH & Q1 & Q2 & Q3).
    assert (X := bh_slv _ _ _ _ _ _ _ _ _ _ _ _ _ _ BH). rewrite EO, U14 in X. change (l_parse hL) with (fun _ : string => @None Z) in X. rewrite S1 in X. apply Ok_inj in X. subst si'.
    assert (X := bh_lat _ _ _ _ _ _ _ _ _ _ _ _ _ _ BH). injection X as <-.
    assert (X := bh_sel _ _ _ _ _ _ _ _ _ _ _ _ _ _ BH). rewrite EO, S3, S5, O11 in X. apply Ok_inj in X. subst s'.
    assert (X := bh_fit _ _ _ _ _ _ _ _ _ _ _ _ _ _ BH). rewrite EO, F in X. apply Ok_inj in X. injection X as <- <- <- <-.
    assert (RS := own_residuals _ _ _ _ _ _ _ _ _ _ _ _ _ _ BH (an_sorted _ _ _ _ _ _ _ _ AN) ltac:(unfold approximate; rewrite EO, O6; reflexivity) hsm Q1).
    match goal with |- residuals _ _ ?x => replace x with (rs k B4 [a; b; c] hsm); [exact RS|] end.
    unfold rs. rewrite EO, O2. apply h_residual.
  - exists (crow_of c2 0). assert (ROW : rows k = [crow_of c2 0]).
    { apply Permutation_length_1_inv. apply Permutation_sym. exact RP. }
    split; [rewrite ROW; left; reflexivity|].
    split; [reflexivity|]. split; [reflexivity|]. split; [cbn [crow_of w_g c2 set_diag c1 set_ci core coef_core c_g]; now rewrite O2|].
    split; [intros T; cbn [crow_of w_A c2 set_diag c1 set_ci core coef_core c_A]; rewrite O2, T; reflexivity|].
    split; [|exact ROW]. intros T. cbn [crow_of w_Lsmaj w_Lsmin c2 set_diag c1 set_ci core coef_core c_Lsmaj c_Lsmin]. rewrite O2, T. split; reflexivity.
Qed.
End Run.

(** the noise is not zero *)
Lemma h_squares_u z : fst z <> 0 -> 0 < rsum (map (fun r => fst r ^ 2) (map (fun i => Cmult (RtoC (hn i)) z) [0; 1; 2; 3]%nat)).
Proof.
  intros Z. cbn [map hn nth]. unfold rsum. cbn [fold_right]. unfold Cmult, RtoC. cbn [fst snd]. assert (S := sin_ph).
  generalize dependent (sin ph). generalize (sin (3 * ph)). intros p s S. assert (0 < (s * fst z) ^ 2) by (apply pow2_gt_0, Rmult_integral_contrapositive; lra).
  generalize (pow2_ge_0 (p * fst z)). intros. rewrite !Rmult_0_l, !Rminus_0_r, !Rpow_mult_distr in *. nra.
Qed.
Lemma h_squares_v z : snd z <> 0 -> 0 < rsum (map (fun r => snd r ^ 2) (map (fun i => Cmult (RtoC (hn i)) z) [0; 1; 2; 3]%nat)).
Proof.
  intros Z. cbn [map hn nth]. unfold rsum. cbn [fold_right]. unfold Cmult, RtoC. cbn [fst snd]. assert (S := sin_ph).
  generalize dependent (sin ph). generalize (sin (3 * ph)). intros p s S. assert (0 < (s * snd z) ^ 2) by (apply pow2_gt_0, Rmult_integral_contrapositive; lra).
  generalize (pow2_ge_0 (p * snd z)). intros. rewrite !Rmult_0_l, !Rplus_0_r, !Rpow_mult_distr in *. nra.
Qed.
