(** Robust analyses of one series with coloured noise: the intervals do not depend on the datum. *)
From Coq Require Import Lia Lra Permutation.
From Coquelicot Require Import Coquelicot.
From Verif Require Import M_Base M_Lib M_Options M_Time M_Slvinit M_Harmonics M_Select M_Ellipse M_Robust M_Period M_Conf M_Diag M_Solve M_Recon S_Dict S_Options S_Order S_Basis S_Fit S_Ellipse S_Slv S_Recon S_Model S_Conf S_Robust S_Errors S_RobustErr S_RobNoise
  L_Base L_Options L_SolveInv L_OptSolve L_Slv L_Slv2 L_Select L_Fit L_Angle L_Ellipse L_Ellipse2 L_Core L_Lsq L_Model L_Model2 L_Model3 L_Model4 L_Model5 L_Model6 L_Model7 L_Model8 L_Model9 L_Model10 L_Model11 L_Model12 L_Model15 L_Conf L_Conf2 L_Conf3 L_Conf4 L_Errors3 L_Errors5 L_Errors6 L_SelOrder L_Affine L_Affine2 L_Affine3 L_Homog
  L_Robust L_RobEq L_RobEq2 L_RobErr L_RobErr2 L_RobErr3 L_RobNoise L_Noise3.
Open Scope R_scope.
Open Scope string_scope.

(** ** The two analyses *)
Section RTwo.
Variables (L : lib) (t : pyarr tarray) (u u' : pyarr (list xr)) (v v' : option (pyarr (list xr))) (lat : option R) (opts : dict pyval).
Variables (sm : list (R * C)) (c c' : coef) (k : R) (be ga : C).
Notation sm' := (map (fun x => (fst x, Cplus (Cplus (Cmult (RtoC k) (snd x)) be) (Cmult (RtoC (fst x - c_reftime c)) ga))) sm).
Hypothesis AN : analysis L t u v lat opts sm c.
Hypothesis AN' : analysis L t u' v' lat opts sm' c'.
Hypothesis D2 : is2d v = is2d v'.
Hypothesis NA : approximate (c_opt c) = false.
Hypothesis LC : forall rc, lstsq_contract L rc.
Hypothesis NO : o_method (c_opt c) <> PStr "ols".
Hypothesis K0 : k <> 0.
Hypothesis Hga : o_notrend (c_opt c) = true -> ga = RtoC 0.

Lemma rtwo : c_opt c' = c_opt c /\ c_reftime c' = c_reftime c /\ c_lat c' = c_lat c /\ Permutation (c_lind c') (c_lind c) /\ Permutation (c_name c') (c_name c).
Proof.
  destruct (top_raffine _ _ _ _ _ _ _ _ _ _ _ _ _ _ K0 AN AN' D2 NA LC NO Hga) as (E1 & E2 & _ & P & _ & _ & W & W').
  split; [exact E1|]. split; [exact E2|].
  destruct (analysis_run _ _ _ _ _ _ _ _ AN) as (_ & si & la & s & B & xraw & m & WW & BH & _).
  destruct (analysis_run _ _ _ _ _ _ _ _ AN') as (_ & si' & la' & s' & B' & xraw' & m' & WW' & BH' & _).
  split.
  { rewrite (bh_la _ _ _ _ _ _ _ _ _ _ _ _ _ _ BH), (bh_la _ _ _ _ _ _ _ _ _ _ _ _ _ _ BH').
    assert (X := bh_lat _ _ _ _ _ _ _ _ _ _ _ _ _ _ BH). assert (X' := bh_lat _ _ _ _ _ _ _ _ _ _ _ _ _ _ BH'). congruence. }
  assert (G : forall k0, well_formed k0 -> map (fun x => snd (fst x)) (triples k0) = c_lind k0).
  { intros k0 W0. rewrite <- (map_map fst snd), triples_fst by assumption. apply combine_snd.
    assert (A := wf_aligned _ W0). destruct A as (_ & A & _). now rewrite A. }
  split; [rewrite <- !G by assumption|rewrite <- !triples_names by assumption].
  - rewrite P, map_map. reflexivity.
  - rewrite P, map_map. reflexivity.
Qed.

Lemma rsample_waves x : In x (map fst sm) -> exists es, map (e_of c x) (c_lind c) = map Some es.
Proof.
  destruct (analysis_run _ _ _ _ _ _ _ _ AN) as (_ & si & la & s & B & xraw & m & WW & BH & S1 & S2 & S3).
  intros Hx. rewrite <- S1 in Hx. assert (G := good_rows _ _ _ _ _ _ _ _ _ _ _ _ _ _ BH).
  destruct (F2_left _ _ _ _ G Hx) as (row & Hrow & Gx).
  assert (Lm := bh_len _ _ _ _ _ _ _ _ _ _ _ _ _ _ BH).
  destruct (run_row _ _ _ _ _ _ _ _ _ _ _ _ _ _ BH NA x row m Gx Lm) as (es & R1 & _).
  assert (SL := run_lens _ _ _ _ _ _ _ _ _ _ _ _ _ _ BH).
  eapply perm_finite; [|exact R1].
  assert (P := triples_lind _ _ _ (bh_wf _ _ _ _ _ _ _ _ _ _ _ _ _ _ BH) (bh_tri _ _ _ _ _ _ _ _ _ _ _ _ _ _ BH (an_sorted _ _ _ _ _ _ _ _ AN))
      ltac:(rewrite map_length, (bh_pm _ _ _ _ _ _ _ _ _ _ _ _ _ _ BH), combine_length, (ln_lind _ SL); lia)).
  rewrite combine_snd in P by now rewrite (ln_lind _ SL). exact P.
Qed.

Lemma rtwo_yields x y r : In (x, y) sm -> yields c x (Cminus y r) ->
  yields c' x (Cminus (Cplus (Cplus (Cmult (RtoC k) y) be) (Cmult (RtoC (x - c_reftime c)) ga)) (Cmult (RtoC k) r)).
Proof.
  intros Hx Y.
  destruct (top_raffine _ _ _ _ _ _ _ _ _ _ _ _ _ _ K0 AN AN' D2 NA LC NO Hga) as (E1 & E2 & _ & P & Em & Es & W & W').
  destruct rtwo as (_ & _ & E3 & _ & _).
  destruct (rsample_waves x) as (es & He); [apply in_map_iff; exists (x, y); auto|].
  assert (He' : map (e_of c' x) (c_lind c) = map Some es).
  { rewrite <- He. apply map_ext. intros i. unfold e_of. now rewrite E1, E2, E3. }
  set (N := map (fun pq => (Cmult (RtoC k) (fst pq), Cmult (RtoC k) (snd pq))) (pms c)).
  assert (A := wf_aligned _ W). destruct A as (_ & A & _).
  assert (P' : Permutation (triples c') (combine (combine (c_name c) (c_lind c)) N)).
  { rewrite P. apply Permutation_refl'. unfold triples, N. generalize (combine (c_name c) (c_lind c)) (pms c). clear.
    induction l as [|a l IH]; intros [|b q]; cbn [map combine]; auto. f_equal. apply IH. }
  assert (LN : length N = length (c_lind c)) by (unfold N, pms; now rewrite !map_length, seq_length).
  assert (R1 := recon_natural c' x es _ _ N W' P' (eq_sym A) LN He'). assert (R0 := recon_vals c x es W He). cbv zeta in R0, R1.
  unfold N in R1. rewrite hsum_scal in R1.
  assert (YZ : yields c x (Cplus (hsum es (pms c)) (bgC c x))).
  { destruct R0 as (Q1 & Q2 & Q3). split; [exact Q1|]. destruct (o_twodim (c_opt c)); auto. }
  assert (EZ := yields_unique _ _ _ _ Y YZ).
  assert (S3 : o_twodim (c_opt c) = false -> snd y = 0 /\ snd (Cplus (Cplus (Cmult (RtoC k) y) be) (Cmult (RtoC (x - c_reftime c)) ga)) = 0).
  { intros T. destruct (analysis_run _ _ _ _ _ _ _ _ AN) as (_ & si & la & s & B & xraw & m & WW & BH & _ & _ & S3).
    destruct (analysis_run _ _ _ _ _ _ _ _ AN') as (_ & si' & la' & s' & B' & xraw' & m' & WW' & BH' & _ & _ & S3').
    split; [exact (S3 T _ Hx)|]. rewrite E1 in S3'.
    refine (S3' T (x, Cplus (Cplus (Cmult (RtoC k) y) be) (Cmult (RtoC (x - c_reftime c)) ga)) _).
    apply in_map_iff. exists (x, y). auto. }
  rewrite E1 in R1. destruct R1 as (Q1 & Q2 & _). unfold yields. rewrite E1.
  unfold bgC in *. rewrite E1, E2, Em in Q1, Q2. destruct (o_twodim (c_opt c)) eqn:T; cbn [vis1] in *.
  - assert (Z : Cminus (Cplus (Cplus (Cmult (RtoC k) y) be) (Cmult (RtoC (x - c_reftime c)) ga)) (Cmult (RtoC k) r) =
      Cplus (Cmult (RtoC k) (hsum es (pms c)))
        (Cplus (Cplus (Cmult (RtoC k) (mnC c)) be) (if o_notrend (c_opt c) then RtoC 0 else Cmult (RtoC (x - c_reftime c)) (slC c')))).
    { transitivity (Cplus (Cplus (Cmult (RtoC k) (Cminus y r)) be) (Cmult (RtoC (x - c_reftime c)) ga)); [ring|]. rewrite EZ.
      destruct (o_notrend (c_opt c)) eqn:NT; [rewrite (Hga eq_refl); ring|]. rewrite (Es eq_refl). ring. }
    rewrite Z. split; [exact Q1|]. now apply Q2.
  - destruct (S3 eq_refl) as (Y0 & Y1). destruct Y as (_ & Y). rewrite T in Y.
    assert (R0' : snd r = 0) by (destruct y, r; cbn in *; lra). split.
    + rewrite Q1. f_equal. apply (f_equal fst) in EZ.
      transitivity (k * fst (Cminus y r) + fst be + (x - c_reftime c) * fst ga); [|destruct y, r, be, ga; cbn in *; ring].
      rewrite EZ. destruct (o_notrend (c_opt c)) eqn:NT.
      * rewrite (Hga eq_refl). destruct (hsum es (pms c)), (mnC c), be. cbn. ring.
      * rewrite (Es eq_refl). destruct (hsum es (pms c)), (mnC c), (slC c), be, ga. cbn. ring.
    + destruct r. cbn in *. subst. destruct y, be, ga. cbn in *. lra.
Qed.
Lemma rtwo_residuals rs : residuals c sm rs -> residuals c' sm' (map (Cmult (RtoC k)) rs).
Proof.
  unfold residuals. intros H.
  assert (G : forall l, (forall x, In x l -> In x sm) -> forall rs, Forall2 (fun s r => yields c (fst s) (Cminus (snd s) r)) l rs ->
     Forall2 (fun s r => yields c' (fst s) (Cminus (snd s) r))
      (map (fun x => (fst x, Cplus (Cplus (Cmult (RtoC k) (snd x)) be) (Cmult (RtoC (fst x - c_reftime c)) ga))) l) (map (Cmult (RtoC k)) rs)).
  { induction 2 as [|x r l l' Hr F IH]; cbn [map]; constructor; [|apply IH; intros; apply H0; now right].
    cbn [fst snd]. apply rtwo_yields; [destruct x; apply H0; now left|exact Hr]. }
  apply G; auto.
Qed.

Lemma rtwo_wsum w f : wsum w sm' f = wsum w sm f.
Proof.
  unfold wsum. clear. generalize (c_reftime c). intros r0. revert w. induction sm as [|x l IH]; intros [|a w]; cbn [map combine]; auto. rewrite !rsum_cons, IH. reflexivity.
Qed.
Lemma rtwo_unbiased i b w : unbiased c sm i b w <-> unbiased c' sm' i b w.
Proof.
  destruct rtwo as (E1 & E2 & E3 & PL & _). unfold unbiased. rewrite map_length, E1, E2, !rtwo_wsum.
  assert (Wc : forall j, wave_cos c' j = wave_cos c j) by (intros; unfold wave_cos; now rewrite E1, E2, E3).
  assert (Ws : forall j, wave_sin c' j = wave_sin c j) by (intros; unfold wave_sin; now rewrite E1, E2, E3).
  split; intros (H1 & H2 & H3 & H4); (split; [exact H1|]; split; [|split; [exact H3|exact H4]]); intros j Hj.
  - rewrite Wc, Ws, !rtwo_wsum. apply H2. eapply Permutation_in; eauto.
  - rewrite <- Wc, <- Ws, <- (rtwo_wsum w (wave_cos c' j)), <- (rtwo_wsum w (wave_sin c' j)). apply H2. eapply Permutation_in; [apply Permutation_sym|]; eauto.
Qed.
Lemma rtwo_best w i b o : best_weighted c sm w i b o -> best_weighted c' sm' w i b o.
Proof. intros (H1 & H2 & H3). split; [now apply rtwo_unbiased|]. split; [exact H2|]. intros o' H. apply H3. now apply rtwo_unbiased. Qed.
End RTwo.

(** the share of the noise of one coefficient does not depend on the measured noise, unless it is zero *)
Lemma share_any P x y q q' : q <> 0 -> q' <> 0 -> 0 < x -> 0 < y ->
  xdiv (xmul P (Fin (x * q))) (xadd (Fin (x * q)) (Fin (y * q))) = xdiv (xmul P (Fin (x * q'))) (xadd (Fin (x * q')) (Fin (y * q'))).
Proof.
  intros Q Q' X Y. cbn [xadd].
  assert (G : forall z, z <> 0 -> x * z + y * z <> 0) by (intros z Z; replace (x * z + y * z) with ((x + y) * z) by ring; apply Rmult_integral_contrapositive; split; lra).
  assert (S : forall z, z <> 0 -> xdiv (sgn_inf (x * z)) (Fin (x * z + y * z)) = PInf /\ xdiv (sgn_inf (- (x * z))) (Fin (x * z + y * z)) = NInf).
  { intros z Z. unfold sgn_inf. destruct (Rlt_dec 0 z) as [Hz|Hz].
    - assert (0 < x * z) by (apply Rmult_lt_0_compat; lra). assert (0 < y * z) by (apply Rmult_lt_0_compat; lra).
      destruct (Rlt_dec 0 (x * z)) as [_|]; [|lra]. destruct (Rlt_dec 0 (- (x * z))) as [|_]; [lra|]. destruct (Rlt_dec (- (x * z)) 0) as [_|]; [|lra].
      cbn [xdiv]. destruct (Rle_dec 0 (x * z + y * z)); [auto|lra].
    - assert (0 < x * - z) by (apply Rmult_lt_0_compat; lra). assert (0 < y * - z) by (apply Rmult_lt_0_compat; lra).
      destruct (Rlt_dec 0 (x * z)) as [|_]; [lra|]. destruct (Rlt_dec (x * z) 0) as [_|]; [|lra]. destruct (Rlt_dec 0 (- (x * z))) as [_|]; [|lra].
      cbn [xdiv]. destruct (Rle_dec 0 (x * z + y * z)); [lra|auto]. }
  destruct P as [P| | |]; cbn [xmul].
  - unfold xdiv. destruct (Req_EM_T (x * q + y * q) 0) as [E|_]; [now destruct (G q)|]. destruct (Req_EM_T (x * q' + y * q') 0) as [E|_]; [now destruct (G q')|].
    f_equal. now rewrite !share'.
  - destruct (S q Q) as [-> _], (S q' Q') as [-> _]. reflexivity.
  - destruct (S q Q) as [_ ->], (S q' Q') as [_ ->]. reflexivity.
  - reflexivity.
Qed.
Lemma linear1_any X Y x y q q' P : q <> 0 -> q' <> 0 -> 0 < x -> 0 < y ->
  linear1 X Y (Fin (x * q)) (Fin (y * q)) (Some P) = linear1 X Y (Fin (x * q')) (Fin (y * q')) (Some P).
Proof.
  intros Q Q' Hx Hy. unfold linear1. rewrite (share_any P x y q q') by assumption.
  assert (E : forall z, xadd (Fin (x * z)) (Fin (y * z)) = xadd (Fin (y * z)) (Fin (x * z))) by (intros; cbn [xadd]; f_equal; ring).
  rewrite (E q), (E q'), (share_any P y x q q') by assumption. reflexivity.
Qed.

(** the coefficients behind an amplitude and a phase *)
Lemma coefs_of X Y A g : A_of X Y = A -> g1_of X Y = g -> X = A * cos (rad g) /\ Y = A * sin (rad g).
Proof.
  intros EA Eg. destruct (cs2cep1 X Y) as [[[A' mi] th] g'] eqn:E.
  assert (A' = A) by (rewrite <- EA; unfold A_of; now rewrite E). assert (g' = g) by (rewrite <- Eg; unfold g1_of; now rewrite E). subst A' g'.
  destruct (cep1_lemma _ _ _ _ _ _ E) as (_ & _ & _ & _ & _ & M). split.
  - generalize (M 0). unfold component. rewrite cos_minus, cos_0, sin_0. intros; lra.
  - generalize (M (PI / 2)). unfold component. rewrite cos_minus, cos_PI2, sin_PI2. intros; lra.
Qed.

Lemma wrow_frq k0 x : well_formed k0 -> In x (rows k0) -> exists i, w_lind x = Some i /\ w_frq x = Some (nth i (linearized_freqs (c_reftime k0)) 0).
Proof.
  intros W0 Hx. unfold rows in Hx. apply in_map_iff in Hx. destruct Hx as (j & <- & Hj). cbn [crow_of w_lind w_frq]. apply in_seq in Hj.
  destruct (wf_aligned _ W0) as (_ & A & _). rewrite (wf_frq _ W0).
  generalize (linearized_freqs (c_reftime k0)). intros hf. rewrite nth_error_map. destruct (nth_error (c_lind k0) j) as [i|] eqn:E; [exists i; auto|]. apply nth_error_None in E. lia.
Qed.

Lemma robust_coloured L t u u' lat opts sm c c' w k be ga : 0 < k ->
  let sm' := map (fun x => (fst x, Cplus (Cplus (Cmult (RtoC k) (snd x)) be) (Cmult (RtoC (fst x - c_reftime c)) ga))) sm in
  analysis L t u None lat opts sm c -> analysis L t u' None lat opts sm' c' ->
  (forall rc, lstsq_contract L rc) -> inv_exact L ->
  o_method (c_opt c) <> PStr "ols" -> setting opts "infer" PNone -> setting opts "conf_int" (PStr "linear") -> setting opts "white" (PBool false) ->
  o_equi (c_opt c) = true \/ lomb_quadratic L ->
  (params c < length sm)%nat -> c_weights c = map Fin w -> (o_notrend (c_opt c) = true -> ga = RtoC 0) ->
  forall q q', noise_measure fst c sm w q -> noise_measure fst c' sm' w q' -> q <> 0 -> q' <> 0 ->
  forall r, In r (rows c) -> exists r', In r' (rows c') /\ row_like k eq r r' /\ widths_scaled k r r'.
Proof.
  intros K sm' AN AN' LC IX NO IN CI WH EQ PN HW Hga q q' NV NV' Q0 Q0' r Hr.
  assert (D2 : is2d (@None (pyarr (list xr))) = is2d (@None (pyarr (list xr)))) by reflexivity.
  assert (NI := no_infer _ _ _ _ _ _ _ _ AN IN).
  assert (NA : approximate (c_opt c) = false) by (unfold approximate; now rewrite NI).
  assert (K0 : k <> 0) by lra.
  destruct (rtop_scaled _ _ _ _ _ _ _ _ _ _ _ _ _ _ K AN AN' D2 NA LC NO Hga) as (EW & _ & RL & _).
  destruct (RL r Hr) as (r' & Hr' & RK). exists r'. split; [exact Hr'|]. split; [exact RK|].
  assert (W := analysis_wf _ _ _ _ _ _ _ _ AN). assert (W' := analysis_wf _ _ _ _ _ _ _ _ AN').
  destruct (rtwo _ _ _ _ _ _ _ _ _ _ _ _ _ _ AN AN' D2 NA LC NO K0 Hga) as (E1 & E2 & E3 & PL & Pn).
  destruct (wrow_frq c r W Hr) as (i & Hl & Hf). destruct (wrow_frq c' r' W' Hr') as (i' & Hl' & Hf').
  assert (i' = i) as -> by (destruct RK as (_ & RK & _); congruence). rewrite E2 in Hf'.
  assert (PN' : (params c' < length sm')%nat) by (unfold sm', params in *; rewrite map_length, E1, (Permutation_length Pn); exact PN).
  assert (HW' : c_weights c' = map Fin w) by congruence.
  destruct (wintervals_any _ _ _ _ _ _ _ _ _ AN IX IN CI PN HW) as (W1 & W2 & si & frq & p & SI & PF & NB & H). apply range_nonneg in W1.
  destruct (wintervals_any _ _ _ _ _ _ _ _ _ AN' IX IN CI PN' HW') as (_ & W2' & si' & frq' & p' & SI' & PF' & NB' & H').
  destruct (H r i Hr Hl) as (Hi & j & oX & oY & qu & qv & X & Y & Xv & Yv & Hj & BX & BY & NU & _ & HH). clear H. rename HH into H.
  destruct (H' r' i Hr' Hl') as (Hi' & j' & oX' & oY' & qu' & qv' & X' & Y' & Xv' & Yv' & Hj' & BX' & BY' & NU' & _ & HH). clear H'. rename HH into H'.
  assert (oX' = oX) as -> by (eapply (wbest_unique c' sm'); [exact W1|exact W2'|exact BX'|]; eapply rtwo_best; eauto).
  assert (oY' = oY) as -> by (eapply (wbest_unique c' sm'); [exact W1|exact W2'|exact BY'|]; eapply rtwo_best; eauto).
  assert (qu = q) as -> by (eapply measure_unique; eauto). assert (qu' = q') as -> by (eapply measure_unique; eauto). clear NU NU' BX' BY'.
  assert (SX := wbest_pos _ _ _ _ _ _ W1 W2 Hi BX). assert (SY := wbest_pos _ _ _ _ _ _ W1 W2 Hi BY).
  assert (TW := set_twodim _ _ _ _ _ _ (an_keys _ _ _ _ _ _ _ _ AN) _ (an_solve _ _ _ _ _ _ _ _ AN)). cbn [is2d] in TW.
  assert (Hw : o_white (c_opt c) = false).
  { apply (set_white _ _ _ _ _ _ (an_keys _ _ _ _ _ _ _ _ AN) _ (an_solve _ _ _ _ _ _ _ _ AN) _ WH). exact falsy_false. }
  assert (T := rows_Lsmaj c r W Hr).
  assert (NN : exists nu, n_uu p j = Some nu /\ n_uu p' j' = Some (xs (k * k) nu)).
  { unfold wnoise_behind in NB, NB'. rewrite E1 in NB', SI'. rewrite Hw, TW in NB, NB'.
    destruct NB as (rs & pp & RS & AV & ->). destruct NB' as (rs' & pp' & RS' & AV' & ->).
    assert (rs' = map (Cmult (RtoC k)) rs) as -> by (eapply residuals_same; [exact RS'|]; eapply rtwo_residuals; eauto).
    assert (ET : si_t si = si_t si').
    { destruct (analysis_run _ _ _ _ _ _ _ _ AN) as (_ & s1 & la & s & B & xraw & m & WW & BH & S1 & _).
      destruct (analysis_run _ _ _ _ _ _ _ _ AN') as (_ & s1' & la' & s' & B' & xraw' & m' & WW' & BH' & S1' & _).
      assert (Z := bh_slv _ _ _ _ _ _ _ _ _ _ _ _ _ _ BH). assert (Z' := bh_slv _ _ _ _ _ _ _ _ _ _ _ _ _ _ BH'). rewrite E1 in Z'.
      assert (s1 = si) by (apply Ok_inj; congruence). assert (s1' = si') by (apply Ok_inj; congruence). subst s1 s1'.
      rewrite S1, S1'. unfold sm'. rewrite map_map. reflexivity. }
    destruct (same_slv2 _ _ _ _ _ _ _ _ _ _ _ SI SI' ET) as (E4 & E5).
    fold (weighted w rs) in AV. fold (weighted w (map (Cmult (RtoC k)) rs)) in AV'.
    assert (M1 : map fst (weighted w (map (Cmult (RtoC k)) rs)) = sc k (map fst (weighted w rs))).
    { unfold weighted, sc. clear. revert w. induction rs as [|z rs IH]; intros [|a w]; cbn [combine map]; auto. f_equal; [cbn; ring|apply IH]. }
    assert (M3 : map fst sm' = map fst sm) by (unfold sm'; rewrite map_map; reflexivity).
    cbn [oif] in AV, AV'. change (@None (list R)) with (option_map (sc k) (@None (list R))) in AV'.
    rewrite M1, M3, E4, E5, averaged_sc in AV' by (auto; lra).
    destruct (band_averaged_psd_by_constit L (si_tin si) (map fst sm) (map fst (weighted w rs)) None (si_elor si) frq' (o_equi (c_opt c)) false) as [q1|e] eqn:AV2; [|discriminate].
    apply Ok_inj in AV'. subst pp'.
    assert (PP : Permutation frq frq').
    { assert (Permutation (map w_frq (rows c')) (map w_frq (rows c))).
      { rewrite !rows_frq by (rewrite wf_frq, map_length by assumption; destruct (wf_aligned _ W) as (_ & A & _), (wf_aligned _ W') as (_ & A' & _); congruence).
        apply Permutation_map. rewrite (wf_frq _ W), (wf_frq _ W'), E2. now apply Permutation_map. }
      assert (Z : Permutation (map Some frq) (map Some frq')) by (rewrite PF, PF'; now apply Permutation_sym).
      destruct (Permutation_map_inv _ _ Z) as (l & X1 & X2). apply somes_inj in X1. subst l. now apply Permutation_sym. }
    destruct (averaged_perm _ _ _ _ _ _ _ _ _ _ _ _ PP AV AV2) as (fu & _ & Q1 & Q2 & _).
    rewrite Hf in Hj. rewrite Hf' in Hj'. generalize dependent (nth i (linearized_freqs (c_reftime c)) 0). intros f Hf Hf' Hj Hj'.
    assert (NT : forall (g : R -> xr) l a, nth_error l a = Some f -> nth_x (map g l) a = g f).
    { intros g l a Z. unfold nth_x. apply nth_error_nth. rewrite nth_error_map, Z. reflexivity. }
    assert (NS : forall l a, nth_x (map (xs (k * k)) l) a = xs (k * k) (nth_x l a)) by (intros; unfold nth_x; rewrite <- (map_nth (xs (k * k)) l NaN a); reflexivity).
    unfold n_uu, noise_sc. cbn [option_map fst snd]. exists (fu f). split.
    - now rewrite Q1, (NT fu _ _ Hj).
    - rewrite NS, Q2, (NT fu _ _ Hj'). reflexivity. }
  destruct NN as (nu & NN1 & NN2). rewrite E1 in H'. rewrite TW in H, H', T. cbv zeta in H, H'. rewrite NN1 in H. rewrite NN2 in H'.
  destruct H as (H1 & H2 & H3 & H4), H' as (H1' & H2' & H3' & H4').
  unfold widths_scaled. rewrite (proj2 T eq_refl).
  set (x := weighted_squares w oX) in *. set (y := weighted_squares w oY) in *. clearbody x y.
  assert (XY : X' = k * X /\ Y' = k * Y).
  { unfold row_like in RK. rewrite (proj2 T eq_refl), H1, H2 in RK. destruct RK as (_ & _ & RK). 
    destruct (w_Lsmin r) as [[?|]|]; [destruct (w_theta r) as [[?|]|]| |].
    all: try (destruct RK as (g' & R1 & R2 & R3)).
    all: destruct (coefs_of X Y _ _ eq_refl eq_refl) as [C1 C2].
    all: assert (EA : A_of X' Y' = k * A_of X Y) by congruence.
    all: assert (Eg : g1_of X' Y' = g') by congruence.
    all: destruct (coefs_of X' Y' _ _ EA Eg) as [C1' C2'].
    all: destruct (Req_dec (A_of X Y) 0) as [Z|Z]; [rewrite Z in C1, C2, C1', C2'; rewrite Rmult_0_r, Rmult_0_l in C1', C2'; rewrite Rmult_0_l in C1, C2; rewrite C1', C2'; split; [rewrite C1|rewrite C2]; ring|].
    all: rewrite <- (R3 Z) in C1', C2'; rewrite C1, C1', C2, C2'; split; ring. }
  destruct XY as [-> ->].
  rewrite (linear1_any _ _ x y q' (k * k * q)) in H3', H4' by (auto; apply Rmult_integral_contrapositive; split; nra).
  assert (V : forall x q, Fin (x * (k * k * q)) = xs (k * k) (Fin (x * q))) by (intros; cbn; f_equal; ring). rewrite !V in H3', H4'.
  destruct (linear1_homog k X Y (Fin (x * q)) (Fin (y * q)) (Some nu) K) as (Q1 & _ & _ & Q4). cbn [option_map] in Q1, Q4.
  rewrite Q1 in H3'. rewrite Q4 in H4'. rewrite H3, H3', H4, H4'. split; [reflexivity|apply width_xs].
Qed.
