(** Basis functions: wrapping, phase modes, finiteness of the nodal corrections, noise bands. *)
From Coq Require Import QArith Qreals Lia Lra.
From Coquelicot Require Import Coquelicot.
From Verif Require Import M_Base M_Tables M_Const M_Slvinit M_Harmonics M_Period M_Conf S_Tables L_Base L_Tables S_Basis S_Harm L_Harm.
Open Scope R_scope.

(** ** wrapping *)
Lemma cos_int x z : cos (x + 2 * PI * IZR z) = cos x.
Proof.
  destruct (Z_le_gt_dec 0 z) as [H|H].
  - rewrite <- (Z2Nat.id z H), <- INR_IZR_INZ. rewrite <- (cos_period x (Z.to_nat z)). f_equal. ring.
  - assert (E : (z = - Z.of_nat (Z.to_nat (- z)))%Z) by lia. rewrite E, opp_IZR, <- INR_IZR_INZ.
    rewrite <- (cos_period _ (Z.to_nat (- z))). f_equal. ring.
Qed.
Lemma sin_int x z : sin (x + 2 * PI * IZR z) = sin x.
Proof.
  destruct (Z_le_gt_dec 0 z) as [H|H].
  - rewrite <- (Z2Nat.id z H), <- INR_IZR_INZ. rewrite <- (sin_period x (Z.to_nat z)). f_equal. ring.
  - assert (E : (z = - Z.of_nat (Z.to_nat (- z)))%Z) by lia. rewrite E, opp_IZR, <- INR_IZR_INZ.
    rewrite <- (sin_period _ (Z.to_nat (- z))). f_equal. ring.
Qed.
Lemma wave_int f u v w : is_integer (v - w) -> wave f u (Some v) = wave f u (Some w).
Proof.
  intros [z Hz]. unfold wave. destruct f; auto. destruct u as [u|]; auto.
  replace (2 * PI * (u + v)) with (2 * PI * (u + w) + 2 * PI * IZR z) by (rewrite <- Hz; ring).
  now rewrite cos_int, sin_int.
Qed.
Lemma wave_exact f u jd k : (k < 146)%nat -> k <> M7 -> wave f u (nth k (V_col jd) None) = wave f u (Some (arg k jd)).
Proof. intros Hk HM. destruct (V_wrap jd k Hk) as (v & E & I). rewrite E. apply wave_int. now apply I. Qed.

(** ** phase modes *)
Lemma V_at_some g tref x k : (k < 146)%nat -> exists v, V_at g tref x k = Some v.
Proof.
  intros Hk. unfold V_at. destruct (GwchNone g); [eauto|]. destruct (V_wrap tref k Hk) as (v & E & _).
  destruct (V_wrap x k Hk) as (v' & E' & _). destruct (GwchLint g); [rewrite E; eauto|eauto].
Qed.
Lemma int_line v a x t f : is_integer (v - a) -> is_integer (v + 24 * (x - t) * f - (a + (x - t) * (24 * f))).
Proof. intros H. replace (v + 24 * (x - t) * f - (a + (x - t) * (24 * f))) with (v - a) by ring. exact H. Qed.
Lemma V_at_lin g tref x k : (k < 146)%nat -> k <> M7 -> GwchNone g = false -> GwchLint g = true ->
  exists v, V_at g tref x k = Some v /\ is_integer (v - (arg k tref + (x - tref) * Derive (arg k) tref)).
Proof.
  intros Hk HM G1 G2. unfold V_at. rewrite G1, G2. destruct (V_wrap tref k Hk) as (v & E & I). rewrite E.
  eexists. split; [reflexivity|]. rewrite (is_derive_unique _ _ _ (lin_derive tref k Hk)).
  apply int_line. auto.
Qed.

(** ** M7 *)
Lemma fmod1_small x : 0 <= x < 1 -> fmod1 x = x.
Proof.
  intros H. unfold fmod1, rtrunc. destruct (Rle_dec 0 x); [|lra].
  assert (E : Int_part x = 0%Z). { unfold Int_part. rewrite <- (tech_up x 1); [reflexivity| |]; simpl; lra. }
  rewrite E. simpl. ring.
Qed.
Lemma fmod1_one x : 1 <= x < 2 -> fmod1 x = x - 1.
Proof.
  intros H. unfold fmod1, rtrunc. destruct (Rle_dec 0 x); [|lra].
  assert (E : Int_part x = 1%Z). { unfold Int_part. rewrite <- (tech_up x 2); [reflexivity| |]; simpl; lra. }
  rewrite E. simpl. ring.
Qed.
Lemma pymod1 z r : 0 <= r < 1 -> pymod (IZR z + r) 1 = r.
Proof.
  intros H. unfold pymod. replace ((IZR z + r) / 1) with (IZR z + r) by field.
  assert (E : Int_part (IZR z + r) = z). { unfold Int_part. rewrite <- (tech_up (IZR z + r) (z + 1)); [lia| |]; rewrite plus_IZR; lra. }
  rewrite E. ring.
Qed.

Lemma M7_rows : rows_of 117 = [178%nat]. Proof. vm_compute. reflexivity. Qed.
Lemma M7_parent : row_parent 178 = 47%nat. Proof. vm_compute. reflexivity. Qed.
Lemma M7_coef : row_coef 178 = 7 / 2.
Proof. unfold row_coef. assert (E : nth 178 shallow_coef 0%Q = (7 # 2)%Q) by (vm_compute; reflexivity). rewrite E. unfold Q2R. cbn. lra. Qed.
Lemma M7_is_shallow : is_shallow 117. Proof. exact (proj1 (row_facts _ _ _ _ (proj1 M7_row))). Qed.
Lemma M2_is_primary : is_primary 47. Proof. exact (proj2 (row_facts _ _ _ _ (proj1 M7_row))). Qed.
Lemma M2_data : nth 47 const_doodson None = Some [2; 0; 0; 0; 0; 0]%Z /\ nth 47 const_semi None = Some 0%Q.
Proof. split; vm_compute; reflexivity. Qed.
Lemma M2_V jd : nth 47 (V_col jd) None = Some (fmod1 (2 * nth 0 (astro jd) 0)).
Proof.
  destruct (V_primary jd 47 M2_is_primary) as (d & s & E1 & E2 & _ & E). rewrite E. destruct M2_data as [D1 D2].
  assert (X1 := eq_trans (eq_sym E1) D1). assert (X2 := eq_trans (eq_sym E2) D2). injection X1 as ->. injection X2 as ->.
  f_equal. f_equal. unfold doodson_sum. cbn [seq map fold_right nth]. unfold Q2R. cbn [Qnum Qden]. lra.
Qed.
Lemma M2_arg jd : arg_primary 47 jd = 2 * lunar_time jd.
Proof.
  unfold arg_primary. destruct M2_data as [D1 D2]. rewrite D1, D2. unfold doodson_sum, astro_var. cbn [seq map fold_right nth].
  unfold Q2R. cbn [Qnum Qden]. lra.
Qed.
Lemma M7_V jd : nth 117 (V_col jd) None = Some (7 / 2 * fmod1 (2 * nth 0 (astro jd) 0)).
Proof.
  rewrite (V_shallow jd 117 M7_is_shallow), M7_rows. unfold rsum. cbn [map fold_right]. rewrite M7_coef, M7_parent, M2_V.
  cbn [oget0]. f_equal. ring.
Qed.
Lemma M7_arg jd : arg 117 jd = 7 / 2 * (2 * lunar_time jd).
Proof.
  rewrite (arg_of_shallow jd 117 M7_is_shallow), M7_rows. unfold rsum. cbn [map fold_right]. rewrite M7_coef, M7_parent, M2_arg. ring.
Qed.
Lemma M7_a : nth 117 (V_col 693595.5) None = Some (arg 117 693595.5 - 7 / 2 * 1387191).
Proof.
  rewrite M7_V, M7_arg, astro_eq. cbn [nth]. unfold lunar_time, sun, moon, poly.
  replace (693595.5) with (IZR 693595 + / 2) at 1 by lra. rewrite pymod1 by lra.
  rewrite !(fmod1_small ((_ + _ + _ + _) / 360)) by lra. f_equal. rewrite fmod1_one by lra. lra.
Qed.
Lemma M7_b : nth 117 (V_col 693596) None = Some (arg 117 693596 - 7 / 2 * 1387192).
Proof.
  rewrite M7_V, M7_arg, astro_eq. cbn [nth]. unfold lunar_time, sun, moon, poly.
  replace (pymod 693596 1) with 0 by (replace 693596 with (IZR 693596 + 0) by ring; symmetry; apply pymod1; lra).
  rewrite !(fmod1_small ((_ + _ + _ + _) / 360)) by lra. f_equal. rewrite fmod1_small by lra. lra.
Qed.

Lemma M7_half jd : exists v, nth 117 (V_col jd) None = Some v /\ exists z, v - arg 117 jd = 7 / 2 * IZR z.
Proof.
  eexists. split; [apply M7_V|]. rewrite M7_arg.
  assert (H := astro_wrap jd 0 ltac:(lia)). unfold astro_var in H. cbn [nth] in H. destruct H as [z Hz]. destruct (int_fmod (2 * nth 0 (astro jd) 0)) as [y Hy].
  exists (y + 2 * z)%Z. rewrite plus_IZR, mult_IZR, <- Hz, <- Hy. ring.
Qed.

Lemma cos_7pi z : cos (2 * PI * (7 / 2 * IZR z)) <> 0.
Proof.
  intros H. assert (S : sin (2 * PI * (7 / 2 * IZR z)) = 0).
  { apply sin_eq_0_1. exists (7 * z)%Z. rewrite mult_IZR. field. }
  assert (X := sin2_cos2 (2 * PI * (7 / 2 * IZR z))). rewrite H, S in X. unfold Rsqr in X. lra.
Qed.

Definition V7 (jd : R) : R := oget0 (nth 117 (V_col jd) None).
Lemma M7_sign_a : cos (2 * PI * (V7 693595.5 - arg 117 693595.5)) = -1.
Proof.
  unfold V7. rewrite M7_a. cbn [oget0].
  generalize (arg 117 693595.5). intros a. replace (2 * PI * (a - 7 / 2 * 1387191 - a)) with (PI + 2 * PI * IZR (-4855169)) by field.
  rewrite cos_int. apply cos_PI.
Qed.
Lemma M7_sign_b : cos (2 * PI * (V7 693596 - arg 117 693596)) = 1.
Proof.
  unfold V7. rewrite M7_b. cbn [oget0].
  generalize (arg 117 693596). intros a. replace (2 * PI * (a - 7 / 2 * 1387192 - a)) with (0 + 2 * PI * IZR (-4855172)) by field.
  rewrite cos_int. apply cos_0.
Qed.

Lemma no_jump_c (c : R) (V A : R -> R) : continuity A ->
  continuity (fun x => cos (c * V x)) -> continuity (fun x => sin (c * V x)) -> continuity (fun x => cos (c * (V x - A x))).
Proof.
  intros Ca H1 H2 x.
  assert (C2 : continuity (fun x => c * A x)).
  { apply (continuity_mult (fun _ => c) A); [apply continuity_const; intros ? ?; reflexivity|exact Ca]. }
  assert (C3 := continuity_comp _ cos C2 continuity_cos). assert (C4 := continuity_comp _ sin C2 continuity_sin).
  assert (C5 := continuity_plus _ _ (continuity_mult _ _ H1 C3) (continuity_mult _ _ H2 C4)).
  apply (continuity_pt_ext _ _ x (fun y => eq_sym (eq_trans (f_equal cos (Rmult_minus_distr_l c (V y) (A y))) (cos_minus _ _)))). exact (C5 x).
Qed.
Lemma no_jump (V A : R -> R) : (forall x, continuous A x) ->
  (forall x, continuous (fun x => cos (2 * PI * V x)) x /\ continuous (fun x => sin (2 * PI * V x)) x) ->
  continuity (fun x => cos (2 * PI * (V x - A x))).
Proof.
  intros Ca H. apply no_jump_c; intros x; apply continuity_pt_filterlim; [apply Ca|apply (proj1 (H x))|apply (proj2 (H x))].
Qed.
Lemma M7_jump : exists jd, ~ (continuous (fun x => cos (2 * PI * V7 x)) jd /\ continuous (fun x => sin (2 * PI * V7 x)) jd).
Proof.
  apply Classical_Pred_Type.not_all_ex_not. intros H.
  assert (Ca : forall x, continuous (arg 117) x).
  { intros x. apply (ex_derive_continuous (arg 117) x). exists (24 * nth 117 (linearized_freqs x) 0). exact (lin_derive x 117 ltac:(lia)). }
  assert (Cs := no_jump V7 (arg 117) Ca H).
  destruct (IVT_cor _ 693595.5 693596 Cs ltac:(lra)) as (z & _ & Hz).
  { cbv beta. rewrite M7_sign_a, M7_sign_b. lra. }
  destruct (M7_half z) as (v & E & y & Hy).
  assert (EV : V7 z = v) by (unfold V7; rewrite E; reflexivity).
  rewrite EV, Hy in Hz. exact (cos_7pi y Hz).
Qed.

(** ** nodal corrections *)
Lemma slat_nz lat : 0 < Rabs lat <= 90 -> slat lat <> 0.
Proof.
  intros [H1 H2]. unfold slat. assert (P := PI_RGT_0).
  assert (E : 5 <= Rabs (eff_lat lat) <= 90).
  { unfold eff_lat. destruct (Rlt_dec (Rabs lat) 5) as [L|L]; [|lra]. unfold rsign. destruct (Rlt_dec 0 lat).
    - rewrite Rabs_pos_eq; lra.
    - destruct (Rlt_dec lat 0); [rewrite Rabs_left; lra|]. replace lat with 0 in H1 by lra. rewrite Rabs_R0 in H1. lra. }
  destruct (Rcase_abs (eff_lat lat)) as [N|N].
  - rewrite Rabs_left in E by assumption. set (y := eff_lat lat) in *. replace (y * (PI / 180)) with (- (- y * (PI / 180))) by ring.
    rewrite sin_neg. assert (0 < sin (- y * (PI / 180))); [|lra]. apply sin_gt_0; nra.
  - rewrite Rabs_right in E by assumption. assert (0 < sin (eff_lat lat * (PI / 180))); [|lra]. apply sin_gt_0; nra.
Qed.

Lemma latfac_fin lat il : slat lat <> 0 -> exists r, latfac lat il = Fin r.
Proof.
  intros H. unfold latfac. destruct il as [|[|[|il]]]; eauto. unfold xdiv. destruct (Req_EM_T (slat lat) 0); [contradiction|eauto].
Qed.
Lemma sat_mat_some jd lat : slat lat <> 0 -> forall z, In z (sat_mat jd lat) -> z <> None.
Proof.
  intros H z Hz. unfold sat_mat in Hz. apply in_map_iff in Hz. destruct Hz as ((r & u) & <- & Hin). apply in_combine_l in Hin.
  unfold sat_rr in Hin. apply in_map_iff in Hin. destruct Hin as ((q & il) & <- & _). cbn [fst snd].
  destruct (latfac_fin lat il H) as [x ->]. discriminate.
Qed.
Lemma ocsum_some l : (forall z, In z l -> z <> None) -> exists z, ocsum l = Some z.
Proof.
  unfold ocsum. induction l as [|a l IH]; intros H; cbn [fold_right]; [eauto|]. destruct IH as [z Hz]; [intros; apply H; now right|].
  rewrite Hz. destruct a as [a|]; [cbn; eauto|]. exfalso. apply (H None); [now left|reflexivity].
Qed.
Lemma sat_F_some jd lat k : slat lat <> 0 -> (k < 146)%nat -> exists z, nth k (sat_F jd lat) None = Some z.
Proof.
  intros H Hk. unfold sat_F. rewrite (nth_indep _ None ((fun ii => ocadd (Some (RtoC 1)) (ocsum (map snd (filter (fun p => Nat.eqb (pred (fst p)) ii) (combine sat_iconst (sat_mat jd lat)))))) 0%nat))
    by (rewrite map_length, seq_length; exact Hk).
  rewrite (map_nth (fun ii => ocadd (Some (RtoC 1)) (ocsum (map snd (filter (fun p => Nat.eqb (pred (fst p)) ii) (combine sat_iconst (sat_mat jd lat))))))).
  destruct (ocsum_some (map snd (filter (fun p => Nat.eqb (pred (fst p)) (nth k (seq 0 nconst) 0%nat)) (combine sat_iconst (sat_mat jd lat))))) as [z ->].
  { intros z Hz. apply in_map_iff in Hz. destruct Hz as ((a & b) & <- & Hin). apply filter_In in Hin. destruct Hin as [Hin _].
    apply in_combine_r in Hin. exact (sat_mat_some jd lat H b Hin). }
  eexists. reflexivity.
Qed.

Lemma nth_omap {A B} (f : A -> B) (l : list (option A)) k : nth k (map (option_map f) l) None = option_map f (nth k l None).
Proof. exact (map_nth (option_map f) l None k). Qed.
Lemma F_primary jd lat k : is_primary k -> nth k (F_col jd lat) None = option_map Cmod (nth k (sat_F jd lat) None).
Proof.
  intros Hp. unfold F_col. set (x := map _ (sat_F jd lat)). assert (Hx : length x = 146%nat) by (unfold x; rewrite map_length; apply sat_F_len).
  transitivity (nth k x None); [exact (proj1 (sh_fold_eq None (fun ik v => option_map (fun f => rpow f (Rabs (sh_coef ik))) v) oprod x Hx) k Hp)|].
  unfold x. apply nth_omap.
Qed.
Lemma U_primary jd lat k : is_primary k -> nth k (U_col jd lat) None = option_map (fun z => angle z / (2 * PI)) (nth k (sat_F jd lat) None).
Proof.
  intros Hp. unfold U_col. set (x := map _ (sat_F jd lat)). assert (Hx : length x = 146%nat) by (unfold x; rewrite map_length; apply sat_F_len).
  transitivity (nth k x None); [exact (proj1 (sh_fold_eq None (fun ik v => omul v (Some (sh_coef ik))) osum x Hx) k Hp)|].
  unfold x. apply nth_omap.
Qed.

Lemma rpow_pos x c : 0 <= rpow x c.
Proof. unfold rpow. destruct (Req_EM_T x 0); [lra|]. unfold Rpower. left. apply exp_pos. Qed.
Lemma oprod_pos l : (forall z, In z l -> exists r, z = Some r /\ 0 <= r) -> exists r, oprod l = Some r /\ 0 <= r.
Proof.
  unfold oprod. induction l as [|a l IH]; intros H; cbn [fold_right]; [exists 1; split; [reflexivity|lra]|].
  destruct IH as (r & -> & Hr); [intros; apply H; now right|]. destruct (H a (or_introl eq_refl)) as (x & -> & Hx).
  exists (x * r). split; [reflexivity|nra].
Qed.
Lemma osum_ex l : (forall z, In z l -> exists r : R, z = Some r) -> exists r, osum l = Some r.
Proof.
  unfold osum. induction l as [|a l IH]; intros H; cbn [fold_right]; [eauto|].
  destruct IH as (r & ->); [intros; apply H; now right|]. destruct (H a (or_introl eq_refl)) as (x & ->). cbn. eauto.
Qed.

Lemma F_finite jd lat k : slat lat <> 0 -> (k < 146)%nat -> exists f, nth k (F_col jd lat) None = Some f /\ 0 <= f.
Proof.
  intros H Hk. assert (P : forall j, is_primary j -> exists f, nth j (F_col jd lat) None = Some f /\ 0 <= f).
  { intros j Hj. rewrite F_primary by assumption. destruct (sat_F_some jd lat j H (proj1 (proj1 (primary_in j) Hj))) as [z ->].
    exists (Cmod z). split; [reflexivity|apply Cmod_ge_0]. }
  destruct (shallow_or_primary k Hk) as [Hs|Hp]; [|auto]. rewrite F_col_eq by assumption. apply oprod_pos.
  intros z Hz. apply in_map_iff in Hz. destruct Hz as (r & <- & Hr). destruct (P _ (row_parent_primary k r Hr Hs)) as (f & -> & _).
  eexists. split; [reflexivity|apply rpow_pos].
Qed.
Lemma U_finite jd lat k : slat lat <> 0 -> (k < 146)%nat -> exists u, nth k (U_col jd lat) None = Some u.
Proof.
  intros H Hk. assert (P : forall j, is_primary j -> exists f, nth j (U_col jd lat) None = Some f).
  { intros j Hj. rewrite U_primary by assumption. destruct (sat_F_some jd lat j H (proj1 (proj1 (primary_in j) Hj))) as [z ->].
    cbn [option_map]. eauto. }
  destruct (shallow_or_primary k Hk) as [Hs|Hp]; [|auto]. rewrite U_col_eq by assumption. apply osum_ex.
  intros z Hz. apply in_map_iff in Hz. destruct Hz as (r & <- & Hr). destruct (P _ (row_parent_primary k r Hr Hs)) as (f & ->).
  cbn. eauto.
Qed.
Lemma M7_two_times : nth_error const_name 117 = Some "M7"%string /\
  (exists v, nth 117 (V_col 693596) None = Some v /\ cos (2 * PI * (v - arg 117 693596)) = 1) /\
  (exists v, nth 117 (V_col 693595.5) None = Some v /\ cos (2 * PI * (v - arg 117 693595.5)) = -1).
Proof.
  split; [exact (proj1 (proj2 M7_row))|]. split; eexists; (split; [apply M7_V|]).
  - assert (X := M7_sign_b). unfold V7 in X. rewrite M7_V in X. exact X.
  - assert (X := M7_sign_a). unfold V7 in X. rewrite M7_V in X. exact X.
Qed.
