(** Intervals of scaled and shifted data: coloured noise. *)
From Coq Require Import Lia Lra Permutation.
From Coquelicot Require Import Coquelicot.
From Verif Require Import M_Base M_Lib M_Options M_Time M_Slvinit M_Harmonics M_Select M_Ellipse M_Period M_Conf M_Diag M_Solve M_Recon S_Dict S_Options S_Order S_Basis S_Fit S_Ellipse S_Recon S_Model S_Conf S_Errors S_RobustErr
  L_Base L_Options L_SolveInv L_OptSolve L_Slv L_Slv2 L_Select L_Fit L_Angle L_Ellipse L_Ellipse2 L_Core L_Lsq L_Model L_Model2 L_Model3 L_Model4 L_Model5 L_Model6 L_Model7 L_Model8 L_Model9 L_Model10 L_Model11 L_Model12 L_Model15 L_Conf L_Conf2 L_Conf3 L_Conf4 L_Errors3 L_Errors5 L_Errors6 L_SelOrder L_Affine L_Affine2 L_Homog.
Open Scope R_scope.
Open Scope string_scope.

(** ** The order of the frequencies does not matter *)
Lemma set_comm {A} (v : A) l i j : list_set (list_set l i v) j v = list_set (list_set l j v) i v.
Proof. revert i j. induction l as [|x l IH]; intros [|i] [|j]; cbn; auto. now rewrite IH. Qed.
Lemma set_len {A} (v : A) l i : length (list_set l i v) = length l.
Proof. revert i. induction l as [|x l IH]; intros [|i]; cbn; auto. Qed.
Lemma mask_perm l l' : Permutation l l' -> forall P, mask_bins P l = mask_bins P l'.
Proof.
  induction 1 as [|i l l' H IH|i j l|l l' l'' H1 IH1 H2 IH2]; intros P; cbn [mask_bins]; auto.
  - destruct (mask_bin P i); cbn [bind]; auto.
  - unfold mask_bin. destruct (Nat.ltb i (length P)) eqn:Ei, (Nat.ltb j (length P)) eqn:Ej; cbn [bind]; rewrite ?set_len, ?Ei, ?Ej; cbn [bind]; auto. now rewrite set_comm.
  - now rewrite IH1.
Qed.
Lemma fbndavg_perm P freq cf cf' bands : Permutation cf cf' -> fbndavg P freq cf bands = fbndavg P freq cf' bands.
Proof.
  intros H. unfold fbndavg. destruct freq as [|f0 freq]; [reflexivity|]. set (fq := f0 :: freq). clearbody fq.
  now rewrite (mask_perm _ _ (Permutation_map (i_constit fq) H)).
Qed.
Lemma band_psd_perm L t eu ev cf cf' equi : Permutation cf cf' -> band_psd L t eu ev cf equi = band_psd L t eu ev cf' equi.
Proof.
  intros H. unfold band_psd. cbv zeta. destruct (Nat.ltb (length (trim_even t)) 2); [reflexivity|].
  match goal with |- match ?X with _ => _ end = _ => destruct X as [[P Pv] fq] end.
  rewrite (fbndavg_perm _ _ _ _ _ H). destruct (fbndavg P fq cf' freq_bands); cbn [bind]; [|reflexivity]. destruct Pv as [[p1 p2]|]; [|reflexivity].
  now rewrite (fbndavg_perm p1 _ _ _ _ H), (fbndavg_perm p2 _ _ _ _ H).
Qed.
(** each list of levels is a function of the frequency, the same for both orders *)
Lemma averaged_perm L tin t eu ev elor frq frq' equi tw p p' : Permutation frq frq' ->
  band_averaged_psd_by_constit L tin t eu ev elor frq equi tw = Ok p -> band_averaged_psd_by_constit L tin t eu ev elor frq' equi tw = Ok p' ->
  exists fu fv, fst p = map fu frq /\ fst p' = map fu frq' /\ option_map fst (snd p) = option_map (fun f => map f frq) fv /\ option_map fst (snd p') = option_map (fun f => map f frq') fv.
Proof.
  intros H. unfold band_averaged_psd_by_constit. cbv zeta.
  match goal with |- (if ?b then _ else _) = _ -> _ => destruct b end; [discriminate|].
  match goal with |- bind ?X _ = _ -> bind ?Y _ = _ -> _ => assert (E : X = Y) by (destruct equi; now apply band_psd_perm); rewrite <- E; destruct X as [b|e] end; cbn [bind]; [|discriminate].
  intros Q Q'. apply Ok_inj in Q, Q'. subst p p'. cbn [fst snd].
  exists (band_level (map (fun x => xmul (xopt x) (xdiv (Fin 1) (xmul elor (Fin 24)))) (b_Puu b))).
  destruct tw; [|exists None; auto]. destruct (b_Pvv b) as [pv|]; [|exists None; auto]. destruct (b_Puv b) as [puv|]; [|exists None; auto].
  exists (Some (band_level (map (fun x => xmul (xopt x) (xdiv (Fin 1) (xmul elor (Fin 24)))) pv))). cbn [option_map fst]. auto.
Qed.

Lemma same_slv2 parse t u v u' v' lat lat' e si si' : slvinit parse t u v lat e = Ok si -> slvinit parse t u' v' lat' e = Ok si' ->
  si_t si = si_t si' -> si_tin si' = si_tin si /\ si_elor si' = si_elor si.
Proof.
  unfold slvinit. intros H H' E. inv_bind H. inv_bind H. inv_bind H'. inv_bind H'. 
  assert (a0 = a2) by congruence. subst a2.
  match type of H with slv_core ?x ?y ?z = _ => destruct (clean x y z) as [[[T1 t1] u1] v1] eqn:C1; destruct (slv_core_fields _ _ _ _ _ _ _ _ C1 H) as (F1 & F2 & F3 & F4 & F5 & F6) end.
  match type of H' with slv_core ?x ?y ?z = _ => destruct (clean x y z) as [[[T2 t2] u2] v2] eqn:C2; destruct (slv_core_fields _ _ _ _ _ _ _ _ C2 H') as (G1 & G2 & G3 & G4 & G5 & G6) end.
  assert (ET : T1 = T2).
  { transitivity (somes (masked_invalid a0 [])); [|symmetry]; [clear - C1; rename C1 into K|clear - C2; rename C2 into K];
      unfold clean in K; cbv zeta in K;
      match type of K with (if ?b then _ else _) = _ => destruct b end; now injection K. }
  rewrite <- ET in *. rewrite <- F2 in F6. rewrite <- G2, <- E in G6. cbv zeta in F6, G6. destruct F6 as (F6 & F7 & F8), G6 as (G6 & G7 & G8).
  rewrite F6 in G6. apply Ok_inj in G6. split; [now rewrite F1, G1|]. now rewrite F8, G8, G6.
Qed.

Lemma intervals_coloured L t u v u' v' lat opts sm c c' k be ga : 0 < k ->
  let sm' := map (fun x => (fst x, Cplus (Cplus (Cmult (RtoC k) (snd x)) be) (Cmult (RtoC (fst x - c_reftime c)) ga))) sm in
  analysis L t u v lat opts sm c -> analysis L t u' v' lat opts sm' c' -> is2d v = is2d v' ->
  lstsq_minimises L -> inv_exact L ->
  setting opts "method" (PStr "ols") -> setting opts "infer" PNone -> setting opts "conf_int" (PStr "linear") -> o_equi (c_opt c) = true \/ lomb_quadratic L ->
  (params c < length sm)%nat -> identifiable c (map fst sm) -> NoDup (c_name c) -> (o_notrend (c_opt c) = true -> ga = RtoC 0) ->
  forall r, In r (rows c) -> exists r', In r' (rows c') /\ row_like k eq r r' /\ widths_scaled k r r'.
Proof.
  intros K sm' AN AN' D2 LM IX ME IN CI EQ PN ID ND Hga r Hr.
  assert (OLS := set_method _ _ _ _ _ _ (an_keys _ _ _ _ _ _ _ _ AN) _ (an_solve _ _ _ _ _ _ _ _ AN) _ ME).
  assert (NI := no_infer _ _ _ _ _ _ _ _ AN IN).
  assert (NA : approximate (c_opt c) = false) by (unfold approximate; now rewrite NI).
  destruct (top_scaled _ _ _ _ _ _ _ _ _ _ _ _ _ _ K AN AN' D2 NA LM OLS ID ND Hga) as (_ & RL & _).
  destruct (RL r Hr) as (r' & Hr' & RK). exists r'. split; [exact Hr'|]. split; [exact RK|].
  assert (W := analysis_wf _ _ _ _ _ _ _ _ AN). assert (W' := analysis_wf _ _ _ _ _ _ _ _ AN').
  destruct (two _ _ _ _ _ _ _ _ _ _ _ _ _ _ AN AN' D2 NA LM OLS ID ND Hga) as (E1 & E2 & E3 & PL & Pn).
  assert (FR : forall k0 x, well_formed k0 -> In x (rows k0) -> exists i, w_lind x = Some i /\ w_frq x = Some (nth i (linearized_freqs (c_reftime k0)) 0)).
  { intros k0 x W0 Hx. unfold rows in Hx. apply in_map_iff in Hx. destruct Hx as (j & <- & Hj). cbn [crow_of w_lind w_frq]. apply in_seq in Hj.
    destruct (wf_aligned _ W0) as (_ & A & _). rewrite (wf_frq _ W0).
    generalize (linearized_freqs (c_reftime k0)). intros hf. rewrite nth_error_map. destruct (nth_error (c_lind k0) j) as [i|] eqn:E; [exists i; auto|]. apply nth_error_None in E. lia. }
  destruct (FR c r W Hr) as (i & Hl & Hf). destruct (FR c' r' W' Hr') as (i' & Hl' & Hf').
  assert (i' = i) as -> by (destruct RK as (_ & RK & _); congruence). rewrite E2 in Hf'.
  assert (PN' : (params c' < length sm')%nat) by (unfold sm', params in *; rewrite map_length, E1, (Permutation_length Pn); exact PN).
  destruct (run_intervals_any _ _ _ _ _ _ _ _ AN LM IX ME IN CI PN) as (si & frq & p & SI & PF & NB & H).
  destruct (run_intervals_any _ _ _ _ _ _ _ _ AN' LM IX ME IN CI PN') as (si' & frq' & p' & SI' & PF' & NB' & H').
  destruct (H r i Hr Hl) as (j & wX & wY & qu & qv & Hj & BX & BY & NU & NV & _ & _ & HH). clear H. rename HH into H.
  destruct (H' r' i Hr' Hl') as (j' & wX' & wY' & qu' & qv' & Hj' & BX' & BY' & NU' & NV' & _ & _ & HH). clear H'. rename HH into H'.
  assert (F1 : forall x z, fst (Cmult (RtoC x) z) = x * fst z) by (intros ? []; cbn; ring).
  assert (F2 : forall x z, snd (Cmult (RtoC x) z) = x * snd z) by (intros ? []; cbn; ring).
  assert (G1 : forall x y, fst (Cplus x y) = fst x + fst y) by reflexivity. assert (G2 : forall x y, snd (Cplus x y) = snd x + snd y) by reflexivity.
  assert (wX' = wX) as -> by (eapply best_unique; [exact BX'|]; eapply two_best; eauto).
  assert (wY' = wY) as -> by (eapply best_unique; [exact BY'|]; eapply two_best; eauto).
  assert (qu' = k * k * qu) as -> by (eapply noise_unique; [exact NU'|]; eapply two_noise; eauto).
  assert (qv' = k * k * qv) as -> by (eapply noise_unique; [exact NV'|]; eapply two_noise; eauto).
  unfold sm' in H'.
  rewrite (two_estimate sm c k be ga Hga fst i true wX), (two_estimate sm c k be ga Hga fst i false wY),
    (two_estimate sm c k be ga Hga snd i true wX), (two_estimate sm c k be ga Hga snd i false wY) in H' by (auto; apply BX || apply BY).
  assert (T := rows_Lsmaj c r W Hr).
  (* the noise levels *)
  assert (NN : n_uu p' j' = option_map (xs (k * k)) (n_uu p j) /\ n_vv p' j' = option_map (xs (k * k)) (n_vv p j)).
  { unfold noise_behind in NB, NB'. rewrite E1 in NB', SI'. destruct (o_white (c_opt c)); [subst p p'; auto|].
    destruct NB as (rs & pp & RS & AV & ->). destruct NB' as (rs' & pp' & RS' & AV' & ->).
    assert (rs' = map (Cmult (RtoC k)) rs) as -> by (eapply residuals_same; [exact RS'|]; eapply two_residuals; eauto).
    assert (ET : si_t si = si_t si').
    { destruct (analysis_run _ _ _ _ _ _ _ _ AN) as (_ & s1 & la & s & B & xraw & m & WW & BH & S1 & _).
      destruct (analysis_run _ _ _ _ _ _ _ _ AN') as (_ & s1' & la' & s' & B' & xraw' & m' & WW' & BH' & S1' & _).
      assert (X := bh_slv _ _ _ _ _ _ _ _ _ _ _ _ _ _ BH). assert (X' := bh_slv _ _ _ _ _ _ _ _ _ _ _ _ _ _ BH'). rewrite E1 in X'.
      assert (s1 = si) by (apply Ok_inj; congruence). assert (s1' = si') by (apply Ok_inj; congruence). subst s1 s1'.
      rewrite S1, S1'. unfold sm'. rewrite map_map. reflexivity. }
    destruct (same_slv2 _ _ _ _ _ _ _ _ _ _ _ SI SI' ET) as (E4 & E5).
    assert (M1 : map fst (map (Cmult (RtoC k)) rs) = sc k (map fst rs)) by (rewrite !map_map; apply map_ext; auto).
    assert (M2 : oif (o_twodim (c_opt c)) (map snd (map (Cmult (RtoC k)) rs)) = option_map (sc k) (oif (o_twodim (c_opt c)) (map snd rs))).
    { destruct (o_twodim (c_opt c)); cbn [oif option_map]; [|reflexivity]. f_equal. rewrite !map_map. apply map_ext. auto. }
    assert (M3 : map fst sm' = map fst sm) by (unfold sm'; rewrite map_map; reflexivity).
    rewrite M1, M2, M3, E4, E5, averaged_sc in AV' by (auto; lra).
    destruct (band_averaged_psd_by_constit L (si_tin si) (map fst sm) (map fst rs) (oif (o_twodim (c_opt c)) (map snd rs)) (si_elor si) frq' (o_equi (c_opt c)) (o_twodim (c_opt c))) as [q|e] eqn:AV2; [|discriminate].
    apply Ok_inj in AV'. subst pp'.
    assert (PP : Permutation frq frq').
    { assert (Permutation (map w_frq (rows c')) (map w_frq (rows c))).
      { rewrite !rows_frq by (rewrite wf_frq, map_length by assumption; destruct (wf_aligned _ W) as (_ & A & _), (wf_aligned _ W') as (_ & A' & _); congruence).
        apply Permutation_map. rewrite (wf_frq _ W), (wf_frq _ W'), E2. now apply Permutation_map. }
      assert (X : Permutation (map Some frq) (map Some frq')) by (rewrite PF, PF'; now apply Permutation_sym).
      destruct (Permutation_map_inv _ _ X) as (l & X1 & X2). apply somes_inj in X1. subst l. now apply Permutation_sym. }
    destruct (averaged_perm _ _ _ _ _ _ _ _ _ _ _ _ PP AV AV2) as (fu & fv & Q1 & Q2 & Q3 & Q4).
    rewrite Hf in Hj. rewrite Hf' in Hj'. generalize dependent (nth i (linearized_freqs (c_reftime c)) 0). intros f Hf Hf' Hj Hj'.
    assert (NT : forall (g : R -> xr) l a, nth_error l a = Some f -> nth_x (map g l) a = g f).
    { intros g l a X. unfold nth_x. apply nth_error_nth. rewrite nth_error_map, X. reflexivity. }
    assert (NS : forall l a, nth_x (map (xs (k * k)) l) a = xs (k * k) (nth_x l a)) by (intros; unfold nth_x; rewrite <- (map_nth (xs (k * k)) l NaN a); reflexivity).
    unfold n_uu, n_vv, noise_sc. cbn [option_map fst snd]. split.
    - rewrite NS, Q1, Q2, (NT fu _ _ Hj), (NT fu _ _ Hj'). reflexivity.
    - destruct (snd pp) as [[v1 v2]|]; destruct (snd q) as [[v3 v4]|]; destruct fv as [fv|]; try discriminate; cbn [option_map fst snd] in *; [|reflexivity].
      injection Q3 as ->. injection Q4 as ->. rewrite NS, (NT fv _ _ Hj), (NT fv _ _ Hj'). reflexivity. }
  destruct NN as [NN1 NN2]. rewrite NN1, NN2, E1 in H'. set (nu := n_uu p j) in *. set (nv := n_vv p j) in *. clearbody nu nv. clear - K H H' T.
  assert (V : forall x q, Fin (x * (k * k * q)) = xs (k * k) (Fin (x * q))) by (intros; cbn; f_equal; ring). rewrite !V in H'.
  unfold widths_scaled. destruct (o_twodim (c_opt c)).
  - cbv zeta in H, H'. destruct H as (HM & _ & _ & _ & H1 & H2 & H3 & H4), H' as (_ & _ & _ & _ & H1' & H2' & H3' & H4').
    destruct (linear2_homog k (estimate fst wX sm) (estimate fst wY sm) (estimate snd wX sm) (estimate snd wY sm)
      (Fin (squares wX * qu)) (Fin (squares wY * qu)) (Fin (squares wX * qv)) (Fin (squares wY * qv)) nv K) as (Q1 & Q2 & Q3 & Q4).
    rewrite Q1 in H1'. rewrite Q2 in H2'. rewrite Q3 in H3'. rewrite Q4 in H4'.
    rewrite HM, H1, H1', H2, H2', H3, H3', H4, H4'. repeat split; apply width_xs.
  - rewrite (proj2 T eq_refl). cbv zeta in H, H'. destruct H as (_ & _ & H1 & H4), H' as (_ & _ & H1' & H4').
    destruct (linear1_homog k (estimate fst wX sm) (estimate fst wY sm) (Fin (squares wX * qu)) (Fin (squares wY * qu)) nu K) as (Q1 & Q2 & Q3 & Q4).
    rewrite Q1 in H1'. rewrite Q4 in H4'. rewrite H1, H1', H4, H4'. split; [reflexivity|apply width_xs].
Qed.
