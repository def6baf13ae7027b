(** Residuals of a least-squares fit. *)
From Coq Require Import Lia Lra Permutation.
From Verif Require Import M_Base M_Bunch M_Lib M_Tables M_Const M_Options M_Time M_Slvinit M_Harmonics M_Select M_Ellipse
  M_Robust M_Period M_Conf M_Diag M_Solve M_Recon S_Dict S_Options S_Order S_Basis S_Select S_Fit S_Ellipse S_Slv S_Recon S_Model
  L_Base L_Options L_SolveInv L_OptSolve L_Slv2 L_Order L_Select L_Fit L_Align L_SelOrder L_Basis L_Angle L_Ellipse L_Recon L_Recon2 L_Recon3 L_Core
  L_Model L_Lsq L_Model2 L_Model3 L_Model4 L_Model5 L_Model6 L_Model7 L_Model8.
Open Scope R_scope.
Open Scope string_scope.

Lemma app_inj_len {A} (a b x y : list A) : length a = length b -> (a ++ x)%list = (b ++ y)%list -> a = b /\ x = y.
Proof.
  revert b. induction a as [|p a IH]; intros [|q b] L E; try discriminate; auto.
  cbn in E. injection E as -> E. destruct (IH b ltac:(now injection L) E) as [-> ->]. auto.
Qed.
Definition zeros (n : nat) : list C := repeat (RtoC 0) n.
Lemma hsum_zeros es n k : hsum es (combine (zeros n) (zeros k)) = RtoC 0.
Proof.
  unfold zeros. revert n k. induction es as [|e es IH]; intros [|n] [|k]; try reflexivity.
  cbn [repeat combine]. assert (E : forall a l, hsum (e :: es) (a :: l) = Cplus (Cplus (Cmult e (fst a)) (Cmult (Cconj e) (snd a))) (hsum es l)) by reflexivity.
  rewrite E, IH. cbn [fst snd]. ring.
Qed.
Lemma inferred_zeros (f : refstruct -> list C) Rs n : exists k, inferred_coefs (map f Rs) (zeros n) = zeros k.
Proof.
  revert n. induction Rs as [|r Rs IH]; intros [|n]; try (exists 0%nat; reflexivity).
  destruct (IH n) as [k Hk]. exists (length (f r) + k)%nat. unfold inferred_coefs in *. cbn [map combine zeros repeat List.concat fst snd].
  unfold zeros in *. rewrite Hk, repeat_app. f_equal. clear. induction (f r) as [|x l IH]; cbn; auto. rewrite IH. f_equal. ring.
Qed.
Definition spike (i k : nat) (z : C) : list C := (zeros i ++ z :: zeros k)%list.
Lemma spike_len i k z : length (spike i k z) = (i + S k)%nat.
Proof. unfold spike, zeros. rewrite app_length. cbn [length]. now rewrite !repeat_length. Qed.
Lemma hsum_spike e1 e e2 a b : hsum (e1 ++ e :: e2) (combine (spike (length e1) (length e2) a) (spike (length e1) (length e2) b)) =
  Cplus (Cmult e a) (Cmult (Cconj e) b).
Proof.
  unfold spike. rewrite combine_app by (unfold zeros; now rewrite !repeat_length). cbn [combine].
  rewrite hsum_app by (rewrite combine_length; unfold zeros; rewrite !repeat_length; lia). rewrite hsum_zeros.
  assert (E : forall l k, hsum (e :: l) ((a, b) :: k) = Cplus (Cplus (Cmult e a) (Cmult (Cconj e) b)) (hsum l k)) by reflexivity.
  rewrite E, hsum_zeros. ring.
Qed.

Lemma csum_ext {A} (f g : A -> C) l : (forall x, In x l -> f x = g x) -> csum (map f l) = csum (map g l).
Proof. intros H. f_equal. now apply map_ext_in. Qed.
Lemma csum_parts {A} (f : A -> C) l : csum (map f l) = (rsum (map (fun x => fst (f x)) l), rsum (map (fun x => snd (f x)) l)).
Proof.
  induction l as [|a l IH]; [reflexivity|]. cbn [map]. rewrite !rsum_cons. unfold csum in *. cbn [fold_right]. rewrite IH. reflexivity.
Qed.
Lemma csum_cons' a l : csum (a :: l) = Cplus a (csum l). Proof. reflexivity. Qed.

Section Run.
Variables (L : lib) (t : pyarr tarray) (u : pyarr (list xr)) (v : option (pyarr (list xr))) (lat : option R) (opts : dict pyval) (c : coef).
Variables (si : slv) (la : R) (s : sel) (B : list (list C)) (xraw m : list C) (W : list xr).
Hypothesis BH : behind L t u v lat opts c si la s B xraw m W.
Hypothesis HS : sorted_order (opt_value opts "order_constit").
Hypothesis NA : approximate (c_opt c) = false.

Notation tw := (o_twodim (c_opt c)).
Notation tr := (negb (o_notrend (c_opt c))).
Notation matches := (matches c si s).
Notation good := (good_row (si_tref si) (si_lor si) la (c_opt c) s).

Hypothesis LM : lstsq_minimises L.
Hypothesis OLS : o_method (c_opt c) = PStr "ols".
Variable sm : list (R * C).
Hypothesis S1 : si_t si = map fst sm.
Hypothesis S2 : xraw = map snd sm.
Hypothesis S3 : tw = false -> forall x, In x sm -> snd (snd x) = 0.

Definition rs : list C := map (fun p => Cminus (snd (fst p)) (vis1 tw (cdot (snd p) m))) (combine sm B).

Lemma pairs_len : length sm = length B.
Proof. assert (F := paired _ _ _ _ _ _ _ _ _ _ _ _ _ _ BH sm S1). clear - F. induction F; cbn; auto. Qed.

Lemma own_residuals : residuals c sm rs.
Proof.
  unfold residuals, rs. assert (F := paired _ _ _ _ _ _ _ _ _ _ _ _ _ _ BH sm S1).
  assert (OY := own_yields _ _ _ _ _ _ _ _ _ _ _ _ _ _ BH HS NA). clear - F OY.
  induction F as [|x row l B' G F IH]; cbn [combine map]; constructor; auto. cbn [fst snd].
  replace (Cminus (snd x) (Cminus (snd x) (vis1 tw (cdot row m)))) with (vis1 tw (cdot row m)) by ring. now apply OY.
Qed.
Lemma residuals_unique r' : residuals c sm r' -> r' = rs.
Proof.
  assert (O := own_residuals). unfold residuals in *. intros O'. revert O. generalize rs. clear - O'. induction O' as [|x y l k H O' IH]; intros r0 O; inversion O; subst; auto.
  f_equal; [|now apply IH]. assert (E := yields_unique _ _ _ _ H H2).
  transitivity (Cminus (snd x) (Cminus (snd x) y)); [ring|]. rewrite E. ring.
Qed.

(** inner products with anything the model can produce *)
Lemma sys_pairs (f : list C * C -> R) : rsum (map f (sys B xraw)) = rsum (map (fun p => f (snd p, snd (fst p))) (combine sm B)).
Proof.
  unfold sys. rewrite S2. assert (E := pairs_len). clear - E. revert E. generalize B. induction sm as [|x l IH]; intros [|r B'] E; try discriminate; [reflexivity|].
  cbn [map combine]. rewrite !rsum_cons. cbn [fst snd]. f_equal. apply IH. now injection E.
Qed.
Lemma good_pair p : In p (combine sm B) -> good (fst (fst p)) (snd p).
Proof.
  assert (F := paired _ _ _ _ _ _ _ _ _ _ _ _ _ _ BH sm S1). clear - F. induction F as [|x row l B' G F IH]; [intros []|].
  intros [<-|H]; auto.
Qed.
Lemma real_pair p : tw = false -> In p (combine sm B) -> snd (snd (fst p)) = 0.
Proof. intros E H. destruct p as [x row]. apply in_combine_l in H. now apply S3. Qed.

Lemma run_ip d : length d = ncoef (c_opt c) s ->
  rsum (map (fun p => fst (Cminus (cdot (snd p) m) (snd (fst p))) * fst (cdot (snd p) d) + snd (Cminus (cdot (snd p) m) (snd (fst p))) * snd (cdot (snd p) d)) (combine sm B)) = 0.
Proof.
  intros Hd. assert (H := best_orth _ _ (run_best _ _ _ _ _ _ _ _ _ _ _ _ _ _ BH LM OLS) d ltac:(rewrite Hd; symmetry; apply BH)).
  unfold ip in H. rewrite sys_pairs in H. exact H.
Qed.

Lemma run_uncorrelated w d : length d = ncoef (c_opt c) s -> (forall x row, good x row -> cdot row d = RtoC (w x)) -> uncorrelated w sm rs.
Proof.
  intros Hd HW. unfold uncorrelated, rs.
  assert (I1 := run_ip d Hd). assert (I2 := run_ip (map (Cmult (0, 1)) d) ltac:(now rewrite map_length)).
  assert (GP := good_pair). assert (RP := real_pair).
  assert (E : forall l : list (R * C * list C), (forall p, In p l -> In p (combine sm B)) -> forall l', l' = l ->
    csum (map (fun p : R * C * C => Cmult (RtoC (w (fst (fst p)))) (snd p)) (map (fun p => (fst p, Cminus (snd (fst p)) (vis1 tw (cdot (snd p) m)))) l)) =
    (- rsum (map (fun p => fst (Cminus (cdot (snd p) m) (snd (fst p))) * fst (cdot (snd p) d) + snd (Cminus (cdot (snd p) m) (snd (fst p))) * snd (cdot (snd p) d)) l),
     if tw then - rsum (map (fun p => fst (Cminus (cdot (snd p) m) (snd (fst p))) * fst (cdot (snd p) (map (Cmult (0, 1)) d)) +
         snd (Cminus (cdot (snd p) m) (snd (fst p))) * snd (cdot (snd p) (map (Cmult (0, 1)) d))) l) else 0)).
  { induction l as [|p l IH]; intros Hl l' El.
    - cbn. unfold rsum. cbn. unfold RtoC. destruct tw; f_equal; ring.
    - cbn [map]. rewrite csum_cons', (IH (fun q Hq => Hl q (or_intror Hq)) l eq_refl), !rsum_cons. cbn [fst snd].
      assert (Hp := Hl p (or_introl eq_refl)). rewrite cdot_scal, (HW _ _ (GP p Hp)).
      assert (RP' := fun E => RP p E Hp). unfold vis1. generalize (cdot (snd p) m). intros mm.
      repeat match goal with |- context [rsum ?l] => generalize (rsum l); intros ? end. destruct tw.
      + unfold Cminus, Cplus, Cmult, Copp, RtoC. cbn [fst snd]. f_equal; ring.
      + specialize (RP' eq_refl). unfold Cminus, Cplus, Cmult, Copp, RtoC. cbn [fst snd]. rewrite RP'. f_equal; ring. }
  assert (Z : combine sm (map (fun p => Cminus (snd (fst p)) (vis1 tw (cdot (snd p) m))) (combine sm B)) =
     map (fun p => (fst p, Cminus (snd (fst p)) (vis1 tw (cdot (snd p) m)))) (combine sm B)).
  { assert (Lp := pairs_len). clear - Lp. revert Lp. generalize B. induction sm as [|x l IH]; intros [|r B'] Lp; try discriminate; [reflexivity|].
    cbn [map combine]. f_equal. apply IH. now injection Lp. }
  rewrite Z. rewrite (E (combine sm B) (fun p H => H) _ eq_refl), I1, I2. unfold RtoC. destruct tw; f_equal; ring.
Qed.

Lemma mean_vec : exists d, length d = ncoef (c_opt c) s /\ forall x row, good x row -> cdot row d = RtoC 1.
Proof.
  set (z1 := zeros (s_nNR s)). set (z2 := zeros (s_nR s)). exists (cat_m tr z1 z1 z2 z2 (RtoC 1) (RtoC 0)).
  assert (Hl : length (cat_m tr z1 z1 z2 z2 (RtoC 1) (RtoC 0)) = ncoef (c_opt c) s).
  { rewrite cat_m_len. unfold z1, z2, zeros. rewrite !repeat_length. unfold ncoef. destruct (o_notrend (c_opt c)); cbn [negb]; lia. }
  split; [exact Hl|]. intros x row G. destruct (run_row _ _ _ _ _ _ _ _ _ _ _ _ _ _ BH NA x row _ G Hl) as (es & E1 & E2 & E3 & E4).
  rewrite E4, cat_pm by (unfold z1, z2, zeros; apply repeat_length).
  destruct (cat_last tr z1 z1 z2 z2 (RtoC 1) (RtoC 0)) as [C1 C2]. rewrite C1.
  destruct (inferred_zeros r_Rp (s_R s) (s_nR s)) as [k1 K1]. destruct (inferred_zeros r_Rm (s_R s) (s_nR s)) as [k2 K2].
  fold z2 in K1, K2. rewrite K1, K2.
  assert (HZ : forall a b e f, exists n, (combine (zeros a) (zeros a) ++ combine (zeros b) (zeros b) ++ combine (zeros e) (zeros f))%list = combine (zeros n) (zeros n)).
  { intros a b e f. assert (D : forall i j, exists n, combine (zeros i) (zeros j) = combine (zeros n) (zeros n)).
    { intros i j. exists (Nat.min i j). unfold zeros. revert j. induction i as [|i IH]; intros [|j]; cbn; auto. now rewrite IH. }
    assert (P : forall i j, (combine (zeros i) (zeros i) ++ combine (zeros j) (zeros j))%list = combine (zeros (i + j)) (zeros (i + j))).
    { intros i j. unfold zeros. rewrite repeat_app. now rewrite combine_app. }
    destruct (D e f) as [n ->]. rewrite !P. eauto. }
  unfold z1, z2 in *. destruct (HZ (s_nNR s) (s_nR s) k1 k2) as [n ->]. rewrite hsum_zeros.
  destruct tr eqn:Et; [|ring]. rewrite (C2 eq_refl). unfold Cdiv. ring.
Qed.
Lemma trend_vec : tr = true -> exists d, length d = ncoef (c_opt c) s /\ forall x row, good x row -> cdot row d = RtoC (x - si_tref si).
Proof.
  intros Et. set (z1 := zeros (s_nNR s)). set (z2 := zeros (s_nR s)). exists (cat_m tr z1 z1 z2 z2 (RtoC 0) (RtoC (si_lor si))).
  assert (Hl : length (cat_m tr z1 z1 z2 z2 (RtoC 0) (RtoC (si_lor si))) = ncoef (c_opt c) s).
  { rewrite cat_m_len. unfold z1, z2, zeros. rewrite !repeat_length. unfold ncoef. destruct (o_notrend (c_opt c)); cbn [negb]; lia. }
  split; [exact Hl|]. intros x row G. destruct (run_row _ _ _ _ _ _ _ _ _ _ _ _ _ _ BH NA x row _ G Hl) as (es & E1 & E2 & E3 & E4).
  rewrite E4, cat_pm by (unfold z1, z2, zeros; apply repeat_length).
  destruct (cat_last tr z1 z1 z2 z2 (RtoC 0) (RtoC (si_lor si))) as [C1 C2]. rewrite C1.
  destruct (inferred_zeros r_Rp (s_R s) (s_nR s)) as [k1 K1]. destruct (inferred_zeros r_Rm (s_R s) (s_nR s)) as [k2 K2].
  fold z2 in K1, K2. rewrite K1, K2.
  assert (HZ : forall a b e f, exists n, (combine (zeros a) (zeros a) ++ combine (zeros b) (zeros b) ++ combine (zeros e) (zeros f))%list = combine (zeros n) (zeros n)).
  { intros a b e f. assert (D : forall i j, exists n, combine (zeros i) (zeros j) = combine (zeros n) (zeros n)).
    { intros i j. exists (Nat.min i j). unfold zeros. revert j. induction i as [|i IH]; intros [|j]; cbn; auto. now rewrite IH. }
    assert (P : forall i j, (combine (zeros i) (zeros i) ++ combine (zeros j) (zeros j))%list = combine (zeros (i + j)) (zeros (i + j))).
    { intros i j. unfold zeros. rewrite repeat_app. now rewrite combine_app. }
    destruct (D e f) as [n ->]. rewrite !P. eauto. }
  unfold z1, z2. destruct (HZ (s_nNR s) (s_nR s) k1 k2) as [n ->]. rewrite hsum_zeros.
  unfold z1, z2 in C2. rewrite (C2 Et). assert (Hz := E3 Et). rewrite Et.
  assert (Q' : RtoC (si_lor si) <> RtoC 0) by (intros Hq; apply Hz; now apply RtoC_inj). field. exact Q'.
Qed.

Lemma wave_vec i a b : o_infer (c_opt c) = None -> In i (c_lind c) -> exists d, length d = ncoef (c_opt c) s /\
  forall x row, good x row -> exists e, e_of c x i = Some e /\ cdot row d = Cplus (Cmult e a) (Cmult (Cconj e) b).
Proof.
  intros Ei Hi. assert (Hsel := bh_sel _ _ _ _ _ _ _ _ _ _ _ _ _ _ BH). rewrite Ei in Hsel.
  destruct (sel_none _ _ _ _ Hsel) as (_ & N1 & N2 & N3 & N4 & N5 & N6 & N7 & _).
  assert (SL := run_lens _ _ _ _ _ _ _ _ _ _ _ _ _ _ BH).
  assert (P := triples_lind _ _ _ (bh_wf _ _ _ _ _ _ _ _ _ _ _ _ _ _ BH) (bh_tri _ _ _ _ _ _ _ _ _ _ _ _ _ _ BH HS)
    ltac:(rewrite map_length, (bh_pm _ _ _ _ _ _ _ _ _ _ _ _ _ _ BH), combine_length, (ln_lind _ SL); lia)).
  rewrite combine_snd in P by now rewrite (ln_lind _ SL). apply (Permutation_in _ P) in Hi.
  apply in_split in Hi. destruct Hi as (l1 & l2 & El).
  assert (LL : s_nNR s = (length l1 + S (length l2))%nat) by (rewrite (ln_nNR _ SL), <- N5, El, app_length; reflexivity).
  set (sa := spike (length l1) (length l2) a). set (sb := spike (length l1) (length l2) b).
  exists (cat_m tr sa sb [] [] (RtoC 0) (RtoC 0)).
  assert (Hl : length (cat_m tr sa sb [] [] (RtoC 0) (RtoC 0)) = ncoef (c_opt c) s).
  { rewrite cat_m_len. unfold sa, sb. rewrite !spike_len. unfold ncoef. rewrite LL, N7. destruct (o_notrend (c_opt c)); cbn [negb length]; lia. }
  split; [exact Hl|]. intros x row G. destruct (run_row _ _ _ _ _ _ _ _ _ _ _ _ _ _ BH NA x row _ G Hl) as (es & E1 & E2 & E3 & E4).
  rewrite cat_pm in E4 by (unfold sa, sb; rewrite ?spike_len, ?LL, ?N7; auto).
  destruct (cat_last tr sa sb [] [] (RtoC 0) (RtoC 0)) as [C1 C2]. rewrite C1 in E4. rewrite N2 in E4. cbn [map inferred_coefs] in E4.
  rewrite El, map_app in E1. cbn [map] in E1.
  assert (Le : length es = (length l1 + S (length l2))%nat).
  { apply (f_equal (@length _)) in E1. rewrite app_length, !map_length in E1. cbn [length] in E1. rewrite map_length in E1. lia. }
  destruct (split_at es _ _ Le) as (e1 & er & -> & Le1 & Ler). destruct er as [|e e2]; [discriminate|].
  rewrite map_app in E1. cbn [map] in E1.
  assert (EE : e_of c x i = Some e).
  { assert (map (e_of c x) l1 = map Some e1 /\ e_of c x i :: map (e_of c x) l2 = Some e :: map Some e2) as [_ H].
    { apply app_inj_len; [rewrite !map_length; lia|exact E1]. }
    now injection H. }
  exists e. split; [exact EE|]. rewrite E4. clear E4. assert (T : (if tr then Cmult (RtoC (x - si_tref si)) (Cdiv (m_last (cat_m tr sa sb [] [] (RtoC 0) (RtoC 0)) 1) (RtoC (si_lor si))) else RtoC 0) = RtoC 0).
  { destruct tr eqn:Et; [|reflexivity]. rewrite (C2 eq_refl). unfold Cdiv. ring. }
  rewrite T. unfold sa, sb.
  replace (length l1) with (length e1) by lia. replace (length l2) with (length e2) by (cbn in Ler; lia).
  change (combine (inferred_coefs [] []) (inferred_coefs [] [])) with (@nil (C * C)). cbn [combine]. rewrite ?app_nil_r.
  rewrite hsum_spike. ring.
Qed.

(** the mean square misfit *)
Lemma run_variance : fst (Cminus (wdot (map Cconj xraw) xraw (map (fun _ => 1) xraw)) (wdot (map Cconj (model_fit tw B m)) xraw (map (fun _ => 1) xraw))) =
  rsum (map (fun r => fst r ^ 2 + snd r ^ 2) rs).
Proof.
  destruct (own_vec _ _ _ _ _ _ _ _ _ _ _ _ _ _ BH HS NA) as (k & M & RV & V & _).
  assert (I := run_ip k (mt_len _ _ _ _ _ M)). unfold rs. assert (GP := good_pair). assert (RP := real_pair). assert (Lp := pairs_len).
  assert (E : forall l Bl, length l = length Bl -> (forall p, In p (combine l Bl) -> In p (combine sm B)) ->
    fst (Cminus (wdot (map Cconj (map snd l)) (map snd l) (map (fun _ => 1) (map snd l))) (wdot (map Cconj (model_fit tw Bl m)) (map snd l) (map (fun _ => 1) (map snd l)))) =
    rsum (map (fun r : C => fst r ^ 2 + snd r ^ 2) (map (fun p : R * C * list C => Cminus (snd (fst p)) (vis1 tw (cdot (snd p) m))) (combine l Bl))) -
    rsum (map (fun p => fst (Cminus (cdot (snd p) m) (snd (fst p))) * fst (cdot (snd p) k) + snd (Cminus (cdot (snd p) m) (snd (fst p))) * snd (cdot (snd p) k)) (combine l Bl))).
  { clear I. induction l as [|x l IH]; intros [|r Bl] Hl Hp; try discriminate.
    - unfold wdot, csum, rsum, model_fit. destruct tw; cbn; ring.
    - assert (Q := Hp (x, r) (or_introl eq_refl)). specialize (IH Bl ltac:(now injection Hl) (fun p H => Hp p (or_intror H))).
      assert (WD : forall a b aa bb ww, wdot (a :: aa) (b :: bb) (1 :: ww) = Cplus (Cmult (Cmult a (RtoC 1)) b) (wdot aa bb ww)) by reflexivity.
      assert (MF : model_fit tw (r :: Bl) m = vis1 tw (cdot r m) :: model_fit tw Bl m) by (unfold model_fit, vis1; destruct tw; reflexivity).
      rewrite MF. cbn [map combine]. rewrite !WD, !rsum_cons. unfold Cminus in IH at 1. cbn [fst snd Cplus Copp] in IH.
      assert (V' := V _ _ (GP _ Q)). cbn [fst snd] in V'. cbn [fst snd]. rewrite V'. assert (RQ := fun E => RP _ E Q). cbn [fst snd] in RQ.
      unfold vis1 in *. destruct tw.
      + unfold Cminus, Cplus, Copp, Cmult, Cconj, RtoC in *. cbn [fst snd] in *. lra.
      + specialize (RQ eq_refl). unfold Cminus, Cplus, Copp, Cmult, Cconj, RtoC in *. cbn [fst snd] in *. rewrite RQ. lra. }
  rewrite S2. rewrite (E sm B Lp (fun p H => H)), I. apply Rminus_0_r.
Qed.
End Run.
