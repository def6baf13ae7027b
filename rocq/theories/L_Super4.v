(** A vector analysis is the pair of the scalar analyses of its components. *)
From Coq Require Import Lia Lra Permutation.
From Verif Require Import M_Base M_Bunch M_Lib M_Tables M_Const M_Options M_Time M_Slvinit M_Harmonics M_Select M_Ellipse
  M_Robust M_Period M_Conf M_Diag M_Solve M_Recon S_Dict S_Options S_Order S_Basis S_Select S_Fit S_Ellipse S_Slv S_Recon S_Model S_Super
  L_Base L_Options L_SolveInv L_OptSolve L_Slv L_Slv2 L_Order L_Select L_Fit L_Align L_SelOrder L_Basis L_Angle L_Ellipse L_Recon L_Recon2 L_Recon3 L_Core
  L_Ellipse2 L_Model L_Lsq L_Model2 L_Model3 L_Model4 L_Model5 L_Model6 L_Model7 L_Model8 L_Model9 L_Model10 L_Model11 L_Model12 L_Model15 L_Affine2 L_Super L_Super2 L_Super3.
Open Scope R_scope.
Open Scope string_scope.

Lemma twodim_of L t u v lat opts sm c : analysis L t u v lat opts sm c -> o_twodim (c_opt c) = is2d v.
Proof. intros AN. destruct (analysis_run _ _ _ _ _ _ _ _ AN) as (_ & si & la & s & B & xraw & m & W & BH & _). apply (bh_tw _ _ _ _ _ _ _ _ _ _ _ _ _ _ BH). Qed.

Lemma pm1_value f phi A g : Cplus (Cmult (Cmult (RtoC f) (cis phi)) (Cmult (RtoC (A / 2)) (cis (rad (- g))))) (Cmult (Cconj (Cmult (RtoC f) (cis phi))) (Cmult (RtoC (A / 2)) (cis (rad g)))) =
  RtoC (scalar_tide f phi A g).
Proof.
  unfold scalar_tide. rewrite rad_opp. replace (S_Recon.deg g) with (rad g) by (unfold S_Recon.deg, rad; reflexivity || field).
  rewrite cos_minus. unfold cis. apply C_eq; cbn; rewrite ?cos_neg, ?sin_neg; field.
Qed.
Lemma pm2_value f phi a b th g : Cplus (Cmult (Cmult (RtoC f) (cis phi)) (Cmult (RtoC ((a + b) / 2)) (cis (rad (th - g))))) (Cmult (Cconj (Cmult (RtoC f) (cis phi))) (Cmult (RtoC ((a - b) / 2)) (cis (rad (th + g))))) =
  (ellipse_u f phi a b th g, ellipse_v f phi a b th g).
Proof.
  unfold ellipse_u, ellipse_v. replace (S_Recon.deg g) with (rad g) by (unfold S_Recon.deg, rad; reflexivity || field). replace (S_Recon.deg th) with (rad th) by (unfold S_Recon.deg, rad; reflexivity || field).
  replace (rad (th - g)) with (rad th - rad g) by (unfold rad; field). replace (rad (th + g)) with (rad th + rad g) by (unfold rad; field).
  unfold cis. rewrite !cos_minus, !sin_minus, !cos_plus, !sin_plus. apply C_eq; cbn; field.
Qed.

Lemma traced rc ra rb (p q : C * C) : rotary ra = Some p -> rotary rb = Some q -> rotary rc = Some (pair2 (RtoC 1) (0, 1) p q) ->
  w_Lsmaj ra = None -> w_Lsmaj rb = None -> w_Lsmaj rc <> None -> traced_by rc ra rb.
Proof.
  intros Ra Rb Rc Na Nb Nc.
  assert (Qa := rotary_shape _ _ Ra). rewrite Na in Qa. destruct Qa as (A & g & _ & A2 & A3).
  assert (Qb := rotary_shape _ _ Rb). rewrite Nb in Qb. destruct Qb as (A' & g' & _ & B2 & B3).
  assert (Qc := rotary_shape _ _ Rc). destruct (w_Lsmaj rc) eqn:Ec; [|congruence]. rewrite <- Ec in *. clear Ec. destruct Qc as (a & b & th & gc & C1 & C2 & C3 & C4).
  exists a, b, th, gc, A, g, A', g'. repeat (split; [assumption|]). intros f phi.
  unfold rotary in Ra, Rb, Rc. rewrite Na, A2, A3 in Ra. rewrite Nb, B2, B3 in Rb. rewrite C1, C2, C3, C4 in Rc.
  apply Some_eq2 in Ra, Rb, Rc. subst p q. apply (f_equal (fun z => Cplus (Cmult (Cmult (RtoC f) (cis phi)) (fst z)) (Cmult (Cconj (Cmult (RtoC f) (cis phi))) (snd z)))) in Rc.
  cbn [fst snd] in Rc. rewrite pm2_value in Rc. unfold pair2 in Rc. cbn [fst snd] in Rc.
  match type of Rc with _ = ?X => assert (E : X = Cplus (RtoC (scalar_tide f phi A g)) (Cmult (0, 1) (RtoC (scalar_tide f phi A' g')))) end.
  { rewrite <- !pm1_value. ring. }
  rewrite E in Rc. split; [apply (f_equal fst) in Rc|apply (f_equal snd) in Rc]; cbn [fst snd] in Rc; rewrite Rc; cbn; ring.
Qed.

Lemma top_components L t u v lat opts sm a b c :
  analysis L t u (Some v) lat opts sm c -> analysis L t u None lat opts (east sm) a -> analysis L t v None lat opts (north sm) b ->
  lstsq_minimises L -> setting opts "method" (PStr "ols") -> setting opts "infer" PNone -> identifiable c (map fst sm) -> NoDup (c_name c) ->
  Permutation (c_name a) (c_name c) /\ Permutation (c_name b) (c_name c) /\
  (forall r ru rv, In r (rows c) -> In ru (rows a) -> In rv (rows b) -> w_name ru = w_name r -> w_name rv = w_name r -> traced_by r ru rv) /\
  c_umean c = c_mean a /\ c_vmean c = c_mean b /\ (o_notrend (c_opt c) = false -> c_uslope c = c_slope a /\ c_vslope c = c_slope b) /\
  (forall x, recon_u c x = recon_u a x /\ recon_v c x = recon_u b x).
Proof.
  intros AN ANa ANb LM ME IN ID ND.
  assert (OLS := set_method _ _ _ _ _ _ (an_keys _ _ _ _ _ _ _ _ AN) _ (an_solve _ _ _ _ _ _ _ _ AN) _ ME).
  assert (NI := no_infer _ _ _ _ _ _ _ _ AN IN). assert (NIa := no_infer _ _ _ _ _ _ _ _ ANa IN). assert (NIb := no_infer _ _ _ _ _ _ _ _ ANb IN).
  assert (NA : approximate (c_opt c) = false) by (unfold approximate; now rewrite NI).
  destruct (analysis_run _ _ _ _ _ _ _ _ AN) as (_ & si & la & s & B & xraw & m & W & BH & S1 & S2 & S3). subst xraw.
  assert (Ta : map fst (east sm) = map fst sm) by (unfold east; rewrite map_map; reflexivity).
  assert (Tb : map fst (north sm) = map fst sm) by (unfold north; rewrite map_map; reflexivity).
  destruct (other _ _ _ _ _ _ _ _ _ _ _ _ AN ANa Ta (eq_trans NIa (eq_sym NI)) LM NA OLS ND _ _ _ _ _ _ _ BH) as (ka & Ma & Ba & Ya & Wa & Fa & Ra & La & Na & Pa & _).
  destruct (other _ _ _ _ _ _ _ _ _ _ _ _ AN ANb Tb (eq_trans NIb (eq_sym NI)) LM NA OLS ND _ _ _ _ _ _ _ BH) as (kb & Mb & Bb & Yb & Wb & Fb & Rb & Lb & Nb & Pb & _).
  split; [exact Pa|]. split; [exact Pb|].
  assert (D : map snd sm = lin2 (RtoC 1) (0, 1) (map snd (east sm)) (map snd (north sm))).
  { unfold east, north. rewrite !map_map. cbn [snd]. clear. induction sm as [|[x [y z]] l IH]; [reflexivity|]. unfold lin2 in *. cbn [map combine fst snd]. rewrite <- IH. f_equal. apply C_eq; cbn; ring. }
  destruct (core _ _ _ _ _ _ _ _ _ _ _ _ _ _ BH (an_sorted _ _ _ _ _ _ _ _ AN) NA LM OLS S1 S3 ID ND a b ka kb _ _ (RtoC 1) (0, 1) Wa Wb Fa Fb Ra Rb La Lb Na Nb Ma Mb Ya Yb Ba Bb D)
    as (H1 & H2 & H3 & H4).
  assert (Wc := bh_wf _ _ _ _ _ _ _ _ _ _ _ _ _ _ BH).
  assert (Dc := twodim_of _ _ _ _ _ _ _ _ AN). assert (Da := twodim_of _ _ _ _ _ _ _ _ ANa). assert (Db := twodim_of _ _ _ _ _ _ _ _ ANb). cbn [is2d] in *.
  split.
  { intros r ru rv Hr Hu Hv E1 E2. destruct (w_name_some _ _ Hr) as [n Hn]. rewrite Hn in E1, E2.
    destruct (H1 _ _ _ _ Hu Hv Hr E1 E2 Hn) as (p & q & R1 & R2 & R3 & _). eapply traced; eauto.
    - now apply (rows_Lsmaj a ru Wa Hu).
    - now apply (rows_Lsmaj b rv Wb Hv).
    - intros X. apply (rows_Lsmaj c r Wc Hr) in X. congruence. }
  destruct (wf_2d _ Wc Dc) as (_ & _ & _ & (um & Eu) & (vm & Ev) & Hs & _).
  destruct (wf_1d _ Wa Da) as (_ & _ & (ma & Ea) & Hsa & _). destruct (wf_1d _ Wb Db) as (_ & _ & (mb & Eb) & Hsb & _).
  unfold mnC in H2. rewrite Dc, Da, Db, Eu, Ev, Ea, Eb in H2. cbn [od] in H2.
  split; [rewrite Eu, Ea; f_equal; apply (f_equal fst) in H2; cbn in H2; lra|].
  split; [rewrite Ev, Eb; f_equal; apply (f_equal snd) in H2; cbn in H2; lra|].
  split.
  { intros N. specialize (H3 N). destruct (Hs N) as ((us & Eus) & (vs & Evs)). destruct (Hsa (eq_trans Na N)) as (sa & Esa). destruct (Hsb (eq_trans Nb N)) as (sb & Esb).
    unfold slC in H3. rewrite Dc, Da, Db, Eus, Evs, Esa, Esb in H3. cbn [od] in H3.
    split; [rewrite Eus, Esa; f_equal; apply (f_equal fst) in H3; cbn in H3; lra|rewrite Evs, Esb; f_equal; apply (f_equal snd) in H3; cbn in H3; lra]. }
  intros x. destruct (recon_valC a x Wa) as (A1 & _ & A3), (recon_valC b x Wb) as (B1 & _ & B3), (recon_valC c x Wc) as (C1 & C2 & _).
  rewrite A1, B1, C1, (C2 Dc), H4. specialize (A3 Da). specialize (B3 Db).
  assert (BA : valC a x = None <-> valC b x = None).
  { destruct (valC a x) eqn:X1, (valC b x) eqn:X2; try (split; (discriminate || reflexivity)); exfalso; clear - X1 X2 Fa Fb Ra Rb La Lb Ma Mb Wa Wb BH.
    all: assert (SL := run_lens _ _ _ _ _ _ _ _ _ _ _ _ _ _ BH).
    all: assert (G : forall k, length k = ncoef (c_opt c) s -> length (all_pm k s) = length (s_name s)) by (intros k Hk; rewrite (all_pm_run _ _ _ _ _ _ _ _ _ _ _ _ _ _ BH k Hk); apply (ln_lind _ SL)).
    all: unfold valC in X1, X2; rewrite (tides_terms a x _ _ _ Wa (mt_tri _ _ _ _ _ Ma) (ln_lind _ SL) (G _ (mt_len _ _ _ _ _ Ma))) in X1;
      rewrite (tides_terms b x _ _ _ Wb (mt_tri _ _ _ _ _ Mb) (ln_lind _ SL) (G _ (mt_len _ _ _ _ _ Mb))) in X2;
      assert (Q : map (e_of a x) (s_lind s) = map (e_of b x) (s_lind s)) by (apply map_ext; intros i; unfold e_of; now rewrite Fa, Ra, La, Fb, Rb, Lb);
      rewrite Q in X1; destruct (all_some (map (e_of b x) (s_lind s))); cbn [option_map] in X1, X2; (discriminate X1 || discriminate X2). }
  destruct (valC a x) as [za|], (valC b x) as [zb|]; cbn [xfst xsnd]; try (destruct BA as [Y1 Y2]; try (now discriminate (Y1 eq_refl)); try (now discriminate (Y2 eq_refl))); [|split; reflexivity].
  assert (A4 := A3 _ eq_refl). assert (B4 := B3 _ eq_refl). split; f_equal; cbn; rewrite A4, B4; ring.
Qed.
