(** Where the reconstruction is finite. *)
From Coq Require Import Lia Lra Permutation.
From Verif Require Import M_Base M_Lib M_Tables M_Const M_Options M_Time M_Slvinit M_Harmonics M_Select M_Ellipse
  M_Robust M_Period M_Conf M_Diag M_Solve M_Recon S_Dict S_Options L_Base L_Options L_SolveInv L_OptSolve S_Slv L_Slv L_Slv2
  S_Tables L_Tables S_Order L_Order S_Select L_Select S_Fit L_Fit L_Align L_SelOrder L_Order2 L_Order3 L_Order4 S_Basis L_Basis
  S_Recon L_Recon L_Recon2 L_Recon3 S_Harm L_Harm L_Harm2 L_Harm3.
Open Scope R_scope.


Lemma lin_aligned_known tref n l f : lin_aligned tref n l f -> forall i, In i l -> (i < 146)%nat.
Proof.
  intros [H _] i Hi. assert (X := in_map (fun i => nth_error const_name i) _ _ Hi). cbv beta in X. rewrite H in X.
  apply in_map_iff in X. destruct X as (m & E & _). exact (names_lt i m (eq_sym E)).
Qed.
Lemma sel_known tref mr inc inf s : ut_cnstitsel tref mr inc inf = Ok s -> forall i, In i (s_lind s) -> (i < 146)%nat.
Proof.
  destruct inf as [inf|]; intros H.
  - apply sel_infer in H. exact (lin_aligned_known _ _ _ _ (sl_al _ _ _ _ _ H)).
  - apply sel_none in H. destruct H as (_ & A & _ & _ & _ & -> & _). exact (lin_aligned_known _ _ _ _ A).
Qed.
Lemma apply_order_lind c ind b : apply_order c ind = Ok b -> forall i, In i (c_lind b) -> In i (c_lind c).
Proof.
  unfold apply_order. intros H. do 15 inv_bind H. injection H as <-. cbn. intros i Hi.
  match goal with T : take_idx (c_lind c) ind = Ok ?x |- _ => apply take_idx_map in T;
    assert (X : In (Some i) (map Some x)) by (now apply in_map); rewrite <- T in X end.
  apply in_map_iff in X. destruct X as (j & E & _). exact (nth_error_In _ _ E).
Qed.
Lemma solve_known L t u v lat opts c : lstsq_shape L -> arrays_ok t u v -> unique_keys opts ->
  solve L t u v lat opts = Ok c -> c_weights c <> [] -> known_lind c.
Proof.
  intros HL Ha Hu Hc HW. destruct (solve_ran _ _ _ _ _ _ _ HL Ha Hu Hc HW) as (cN & si & s & Rn).
  assert (Ho := rn_ord _ _ _ _ _ _ _ _ _ _ Rn). destruct (reorder_inv _ _ _ _ Ho) as (c' & ind & H1 & H2 & H3).
  intros i Hi. apply (apply_order_lind _ _ _ H2) in Hi.
  assert (E : c_lind c' = s_lind s).
  { destruct H3 as [->|(_ & _ & pe & _ & ->)]; cbn; apply (rn_lind _ _ _ _ _ _ _ _ _ _ Rn). }
  rewrite E in Hi. exact (sel_known _ _ _ _ _ (rn_sel _ _ _ _ _ _ _ _ _ _ Rn) i Hi).
Qed.


Lemma basis_finite g tref lat x i : (NodsatNone g = true \/ slat lat <> 0) -> (i < 146)%nat -> exists e, basis_at g tref lat x i = Some e.
Proof.
  intros Hn Hi. unfold basis_at, wave.
  assert (HF : exists f, F_at g tref lat x i = Some f).
  { unfold F_at. destruct (NodsatNone g); [eauto|]. destruct Hn as [Hn|Hn]; [discriminate|].
    destruct (F_finite (if NodsatLint g then tref else x) lat i Hn Hi) as (f & E & _). rewrite E. eauto. }
  assert (HU : exists f, U_at g tref lat x i = Some f).
  { unfold U_at. destruct (NodsatNone g); [eauto|]. destruct Hn as [Hn|Hn]; [discriminate|].
    destruct (U_finite (if NodsatLint g then tref else x) lat i Hn Hi) as (f & E). rewrite E. eauto. }
  destruct (V_at_some g tref x i Hi) as [v Hv]. destruct HF as [f ->], HU as [w ->]. rewrite Hv. eauto.
Qed.
Lemma tides_finite c x l : well_formed c -> known_lind c -> corrections_finite c -> incl l (rows c) -> exists p, tides c x l = Some p.
Proof.
  intros W K Hc. induction l as [|r l IH]; intros Hl; cbn [tides]; [eauto|].
  destruct IH as [q Hq]; [intros y Hy; apply Hl; now right|]. rewrite Hq.
  assert (Hr := Hl r (or_introl eq_refl)). unfold rows in Hr. apply in_map_iff in Hr. destruct Hr as (i & <- & Hi). apply in_seq in Hi.
  rewrite tide_row by (auto; lia).
  destruct (basis_finite (flags_of (c_opt c)) (c_reftime c) (c_lat c) x (nth i (c_lind c) 0%nat)) as [e ->].
  - destruct Hc as [Hc|Hc]; [left; exact Hc|right; now apply slat_nz].
  - apply K. apply nth_In. rewrite (proj1 (proj2 (wf_aligned c W))). lia.
  - eexists. reflexivity.
Qed.
Lemma filter_incl {A} (p : A -> bool) l : incl (filter p l) l.
Proof. intros x Hx. now apply filter_In in Hx. Qed.
Definition is_fin (x : xr) : Prop := exists r, x = Fin r.
Lemma background_finite c m s x : present m -> (o_notrend (c_opt c) = false -> present s) -> exists b, background c m s x = Some b.
Proof.
  intros [a ->] H. unfold background. destruct (o_notrend (c_opt c)); [eauto|]. destruct (H eq_refl) as [b ->]. cbn. eauto.
Qed.
Lemma values_finite c constit mS mP x : well_formed c -> known_lind c -> corrections_finite c ->
  is_fin (value_u c constit mS mP x) /\ (o_twodim (c_opt c) = true -> is_fin (value_v c constit mS mP x)).
Proof.
  intros W K Hc. unfold value_u, value_v.
  destruct (tides_finite c x (filter (chosen c constit mS mP) (rows c)) W K Hc (filter_incl _ _)) as [p Hp]. rewrite Hp. cbn zeta.
  destruct (o_twodim (c_opt c)) eqn:T.
  - destruct (wf_2d c W T) as (_ & _ & _ & P1 & P2 & P3 & _).
    destruct (background_finite c (c_umean c) (c_uslope c) x P1 (fun H => proj1 (P3 H))) as [b1 ->].
    destruct (background_finite c (c_vmean c) (c_vslope c) x P2 (fun H => proj2 (P3 H))) as [b2 ->].
    cbn. split; [eexists; reflexivity|intros _; eexists; reflexivity].
  - destruct (wf_1d c W T) as (_ & _ & P1 & P2 & _).
    destruct (background_finite c (c_mean c) (c_slope c) x P1 P2) as [b1 ->]. cbn. split; [eexists; reflexivity|discriminate].
Qed.

(** a valid time gives a finite value, an invalid one NaN *)
Lemma placed_exact f t : (forall x, is_fin (f x)) ->
  Forall2 (fun (o : option R) v => match o with Some _ => is_fin v | None => v = NaN end) t (placed f t).
Proof. intros H. induction t as [|[x|] t IH]; cbn; constructor; auto. Qed.

(** ** equator *)
Definition eq_opt : optr :=
  {| o_twodim := false; o_equi := true; o_conf_int := false; o_cnstit := PSeq [PStr "K1"%string]; o_notrend := true;
     o_nodsatlint := false; o_nodsatnone := false; o_gwchlint := false; o_gwchnone := false; o_infer := None; o_rmin := 1;
     o_linci := false; o_white := false; o_nrlzn := 200; o_nodiagn := true; o_ordercnstit := PStr "frequency"%string;
     o_method := PStr "ols"%string; o_robust_kw := PNone; o_epoch := PNone |}.
Definition eq_coef (lat : R) : coef :=
  {| c_name := ["K1"%string]; c_frq := [nth 20 (linearized_freqs 730000) 0]; c_lind := [20%nat]; c_reftime := 730000; c_lat := lat;
     c_opt := eq_opt; c_nNR := 1; c_nR := 0; c_nI := 0; c_weights := [Fin 1]; c_g := [0]; c_A := Some [1]; c_Lsmaj := None;
     c_Lsmin := None; c_theta := None; c_mean := Some 0; c_slope := None; c_umean := None; c_vmean := None; c_uslope := None;
     c_vslope := None; c_g_ci := None; c_A_ci := None; c_Lsmaj_ci := None; c_Lsmin_ci := None; c_theta_ci := None; c_PE := None;
     c_SNR := None; c_diagn := None |}.
Lemma eq_wf lat : well_formed (eq_coef lat).
Proof.
  constructor.
  - unfold aligned. cbn. do 3 (split; [reflexivity|]).
    repeat (split; [intros l Hl; first [discriminate|injection Hl as <-; reflexivity]|]). intros l Hl. discriminate.
  - reflexivity.
  - discriminate.
  - intros _. split; [reflexivity|]. split; [now exists [1]|]. split; [now exists 0|]. split; discriminate.
Qed.
Lemma eq_known lat : known_lind (eq_coef lat).
Proof. intros i [<-|[]]. lia. Qed.
Lemma K1_diurnal : diurnal_satellite 20 /\ is_primary 20.
Proof.
  split.
  - assert (C : existsb (fun p => Nat.eqb (fst p) 21 && Nat.eqb (snd p) 1) (combine sat_iconst sat_ilatfac) = true) by (vm_compute; reflexivity).
    apply existsb_exists in C. destruct C as ([a b] & Hin & E). cbn [fst snd] in E. apply andb_prop in E. destruct E as [E1 E2].
    apply Nat.eqb_eq in E1, E2. subst. destruct (In_nth_error _ _ Hin) as [j Hj]. exists j.
    assert (G : forall (A B : Type) (l : list A) (m : list B) j a b, nth_error (combine l m) j = Some (a, b) -> nth_error l j = Some a /\ nth_error m j = Some b).
    { induction l as [|x l IH]; intros [|y m] [|k] u w H; cbn in *; try discriminate; [injection H as <- <-; auto|auto]. }
    exact (G _ _ _ _ _ _ _ Hj).
  - apply primary_in. split; [lia|]. intros X. apply in_natb_iff in X. vm_compute in X. discriminate.
Qed.
Lemma eq_nan constit x : constit = CNone -> value_u (eq_coef 0) constit 0 0 x = NaN.
Proof.
  intros ->. unfold value_u.
  assert (E : tides (eq_coef 0) x (filter (chosen (eq_coef 0) CNone 0 0) (rows (eq_coef 0))) = None).
  { unfold rows. cbn [length c_name eq_coef seq map filter].
    assert (Hc : chosen (eq_coef 0) CNone 0 0 (crow_of (eq_coef 0) 0) = true) by reflexivity. rewrite Hc.
    cbn [tides]. rewrite (tide_row _ x 0 (eq_wf 0)) by (cbn; lia).
    assert (B : basis_at (flags_of (c_opt (eq_coef 0))) (c_reftime (eq_coef 0)) (c_lat (eq_coef 0)) x (nth 0 (c_lind (eq_coef 0)) 0%nat) = None).
    { unfold basis_at, F_at. cbn [c_opt eq_coef eq_opt flags_of NodsatNone NodsatLint o_nodsatnone o_nodsatlint c_lat c_lind nth].
      rewrite (proj1 (F_equator x 20 (proj2 K1_diurnal) (proj1 K1_diurnal))). reflexivity. }
    rewrite B. reflexivity. }
  rewrite E. reflexivity.
Qed.
