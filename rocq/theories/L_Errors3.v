(** Standard errors of a whole analysis: the columns of the fit, the weights, the noise. *)
From Coq Require Import Lia Lra Permutation.
From Coquelicot Require Import Complex.
From Verif Require Import M_Base M_Bunch M_Lib M_Tables M_Const M_Options M_Time M_Slvinit M_Harmonics M_Select M_Ellipse
  M_Robust M_Period M_Conf M_Diag M_Solve M_Recon S_Dict S_Options S_Order S_Basis S_Select S_Fit S_Ellipse S_Slv S_Recon S_Model S_Errors
  L_Base L_Options L_SolveInv L_OptSolve L_Slv L_Slv2 L_Order L_Select L_Fit L_Align L_SelOrder L_Basis L_Angle L_Ellipse L_Recon L_Recon2 L_Recon3 L_Core
  L_Ellipse2 L_Model L_Lsq L_Model2 L_Model3 L_Model4 L_Model5 L_Model6 L_Model7 L_Model8 L_Model9 L_Gauss L_Errors L_Errors2.
Open Scope R_scope.
Open Scope string_scope.

Lemma somes_map {A B} (f : A -> option B) l k : map f l = map Some k -> forall a d e, (a < length l)%nat -> f (nth a l d) = Some (nth a k e).
Proof.
  intros H a d e Ha. assert (length k = length l) by (apply (f_equal (@length _)) in H; rewrite !map_length in H; auto).
  assert (E := f_equal (fun l => nth a l (f d)) H). cbv beta in E. rewrite map_nth in E. rewrite E.
  rewrite (nth_indep _ (f d) (Some e)) by (rewrite map_length; lia). apply map_nth.
Qed.

Lemma oconj_some es : map oconj (map Some es) = map Some (map Cconj es).
Proof. rewrite !map_map. reflexivity. Qed.
Lemma somes_app (a : list (option C)) b k : (a ++ b)%list = map Some k -> exists k1 k2, k = (k1 ++ k2)%list /\ a = map Some k1 /\ b = map Some k2.
Proof.
  revert k. induction a as [|x a IH]; intros k H; cbn [app] in H.
  - exists [], k. auto.
  - destruct k as [|y k]; [discriminate|]. cbn [map] in H. injection H as -> H. destruct (IH _ H) as (k1 & k2 & -> & -> & ->).
    exists (y :: k1), k2. auto.
Qed.

Lemma rsum_parts n (f : nat -> C) : Sm n f = (rsum (map (fun s => fst (f s)) (seq 0 n)), rsum (map (fun s => snd (f s)) (seq 0 n))).
Proof. unfold Sm. apply csum_parts. Qed.

Lemma Sm_ofR n (f : nat -> R) : Sm n (fun s => RtoC (f s)) = RtoC (rsum (map f (seq 0 n))).
Proof.
  rewrite rsum_parts. unfold RtoC. cbn [fst snd]. f_equal. generalize 0%nat as k. induction n as [|n IH]; intros k; [reflexivity|].
  cbn [seq map]. rewrite rsum_cons, IH. ring.
Qed.

Lemma wsum_Sm w sm f : length w = length sm ->
  RtoC (wsum w sm f) = Sm (length sm) (fun s => RtoC (nth s w 0 * f (fst (nth s sm (0, RtoC 0))))).
Proof.
  intros H. rewrite Sm_ofR. f_equal. unfold wsum. f_equal.
  transitivity (map (fun s => (fun p : R * (R * C) => fst p * f (fst (snd p))) (nth s (combine w sm) (0, (0, RtoC 0)))) (seq 0 (length sm))).
  - symmetry. apply (map_nth_seq (fun p : R * (R * C) => fst p * f (fst (snd p)))). rewrite combine_length. lia.
  - apply map_ext. intros s. rewrite combine_nth by exact H. reflexivity.
Qed.
Lemma estimate_Sm part w sm : length w = length sm ->
  RtoC (estimate part w sm) = Sm (length sm) (fun s => RtoC (nth s w 0 * part (snd (nth s sm (0, RtoC 0))))).
Proof.
  intros H. rewrite Sm_ofR. f_equal. unfold estimate. f_equal.
  transitivity (map (fun s => (fun p : R * (R * C) => fst p * part (snd (snd p))) (nth s (combine w sm) (0, (0, RtoC 0)))) (seq 0 (length sm))).
  - symmetry. apply (map_nth_seq (fun p : R * (R * C) => fst p * part (snd (snd p)))). rewrite combine_length. lia.
  - apply map_ext. intros s. rewrite combine_nth by exact H. reflexivity.
Qed.
Lemma squares_Sm w : RtoC (squares w) = Sm (length w) (fun s => Cmult (RtoC (nth s w 0)) (RtoC (nth s w 0))).
Proof.
  transitivity (Sm (length w) (fun s => RtoC (nth s w 0 ^ 2))).
  - rewrite Sm_ofR. f_equal. unfold squares. f_equal. symmetry. apply (map_nth_seq (fun x => x ^ 2)). reflexivity.
  - apply Sm_ext. intros. apply C_eq; cbn; ring.
Qed.
Lemma R_of_C a b : RtoC a = RtoC b -> a = b. Proof. intros H. now injection H. Qed.

Section Run.
Variables (L : lib) (t : pyarr tarray) (u : pyarr (list xr)) (v : option (pyarr (list xr))) (lat : option R) (opts : dict pyval) (c : coef).
Variables (si : slv) (la : R) (s : sel) (B : list (list C)) (xraw m : list C) (W : list xr).
Hypothesis BH : behind L t u v lat opts c si la s B xraw m W.
Hypothesis HS : sorted_order (opt_value opts "order_constit").
Hypothesis NI : o_infer (c_opt c) = None.

Notation tw := (o_twodim (c_opt c)).
Notation tr := (negb (o_notrend (c_opt c))).
Notation good := (good_row (si_tref si) (si_lor si) la (c_opt c) s).
Notation nc := (length (s_lind s)).
Notation rr := (1 + if o_notrend (c_opt c) then 0 else 1)%nat.

Lemma NA0 : approximate (c_opt c) = false.
Proof. unfold approximate. now rewrite NI. Qed.

Lemma run_counts : s_R s = [] /\ s_nR s = 0%nat /\ s_nNR s = nc /\ s_NRlind s = s_lind s /\ ncoef (c_opt c) s = (nc + nc + rr)%nat /\
  nc = length (s_name s) /\ Permutation (c_lind c) (s_lind s) /\ length (c_name c) = nc.
Proof.
  assert (Hsel := bh_sel _ _ _ _ _ _ _ _ _ _ _ _ _ _ BH). rewrite NI in Hsel.
  destruct (sel_none _ _ _ _ Hsel) as (_ & N1 & N2 & N3 & N4 & N5 & N6 & N7 & _).
  assert (SL := run_lens _ _ _ _ _ _ _ _ _ _ _ _ _ _ BH).
  assert (Hn : s_nNR s = nc) by (rewrite (ln_nNR _ SL), <- N5; reflexivity).
  assert (P : Permutation (c_lind c) (s_lind s)).
  { assert (P := triples_lind _ _ _ (bh_wf _ _ _ _ _ _ _ _ _ _ _ _ _ _ BH) (bh_tri _ _ _ _ _ _ _ _ _ _ _ _ _ _ BH HS)
      ltac:(rewrite map_length, (bh_pm _ _ _ _ _ _ _ _ _ _ _ _ _ _ BH), combine_length, (ln_lind _ SL); lia)).
    rewrite combine_snd in P by now rewrite (ln_lind _ SL). exact P. }
  repeat split; auto.
  - unfold ncoef. rewrite Hn, N7. destruct (o_notrend (c_opt c)); lia.
  - apply (ln_lind _ SL).
  - assert (W0 := bh_wf _ _ _ _ _ _ _ _ _ _ _ _ _ _ BH). rewrite <- (Permutation_length P). destruct (wf_aligned _ W0) as (_ & A2 & _). symmetry. exact A2.
Qed.

Lemma row_shape x row : good x row -> exists es, length es = nc /\ (forall a, (a < nc)%nat -> e_of c x (nth a (s_lind s) 0%nat) = Some (nth a es (RtoC 0))) /\
  (tr = true -> si_lor si <> 0) /\
  row = (es ++ map Cconj es ++ [RtoC 1] ++ (if tr then [RtoC ((x - si_tref si) / si_lor si)] else []))%list.
Proof.
  intros G. destruct run_counts as (R0 & _ & _ & R1 & _). unfold good_row, model_row in G.
  replace (is_approx (c_opt c)) with false in G by (unfold is_approx; now rewrite NI).
  rewrite R0, R1 in G. cbn [map] in G. rewrite app_nil_r in G. cbn [app] in G.
  rewrite <- app_assoc in G. destruct (somes_app _ _ _ G) as (k1 & k2 & -> & G1 & G2).
  destruct (somes_app _ _ _ G2) as (k3 & k4 & -> & G3 & G4). clear G2 G.
  assert (Hl : length k1 = nc) by (apply (f_equal (@length _)) in G1; rewrite !map_length in G1; auto).
  exists k1. split; auto. split.
  { intros a Ha. unfold e_of. rewrite (bh_tref _ _ _ _ _ _ _ _ _ _ _ _ _ _ BH), (bh_la _ _ _ _ _ _ _ _ _ _ _ _ _ _ BH).
    now apply (somes_map _ _ _ G1). }
  rewrite G1, oconj_some in G3. apply somes_inj in G3. subst k3.
  destruct tr.
  - destruct k4 as [|k4 k4']; [discriminate|]. destruct k4' as [|k5 k5']; [discriminate|]. destruct k5' as [|]; [|discriminate].
    cbn [map] in G4. injection G4 as <- G4. unfold trend_entry in G4. destruct (Req_EM_T (si_lor si) 0); [discriminate|].
    injection G4 as <-. auto.
  - destruct k4 as [|k4 k4']; [discriminate|]. destruct k4' as [|]; [|discriminate].
    cbn [map] in G4. injection G4 as <-. split; [discriminate|reflexivity].
Qed.

Variable sm : list (R * C).
Hypothesis S1 : si_t si = map fst sm.
Hypothesis S2 : xraw = map snd sm.
Hypothesis S3 : tw = false -> forall x, In x sm -> snd (snd x) = 0.
Notation n := (length sm).
Notation N := (nc + nc + rr)%nat.
Notation b := (bf B).
Notation tm k := (fst (nth k sm (0, RtoC 0))).
Notation xd k := (snd (nth k sm (0, RtoC 0))).
Notation li a := (nth a (s_lind s) 0%nat).

Lemma B_len : length B = n.
Proof. symmetry. eapply pairs_len; eauto. Qed.
Lemma B_good k : (k < n)%nat -> good (tm k) (nth k B []).
Proof.
  intros Hk. assert (GP := good_pair _ _ _ _ _ _ _ _ _ _ _ _ _ _ BH sm S1 (nth k (combine sm B) ((0, RtoC 0), []))).
  rewrite combine_nth in GP by (symmetry; apply B_len). apply GP.
  rewrite <- combine_nth by (symmetry; apply B_len). apply nth_In. rewrite combine_length, B_len. lia.
Qed.

Lemma b_wave k a : (k < n)%nat -> (a < nc)%nat -> b k a = (wave_cos c (li a) (tm k), wave_sin c (li a) (tm k)).
Proof.
  intros Hk Ha. destruct (row_shape _ _ (B_good k Hk)) as (es & L1 & E1 & _ & E2). unfold bf. rewrite E2.
  rewrite app_nth1 by lia. assert (E := E1 a Ha). unfold wave_cos, wave_sin. unfold e_of in E. rewrite E. now destruct (nth a es (RtoC 0)).
Qed.
Lemma b_conj k a : (k < n)%nat -> (a < N)%nat -> Cconj (b k a) = b k (swapP nc a).
Proof.
  intros Hk Ha. destruct (row_shape _ _ (B_good k Hk)) as (es & L1 & _ & _ & E2). unfold bf. rewrite E2. clear E2.
  unfold swapP. destruct (Nat.ltb_spec a nc); [|destruct (Nat.ltb_spec a (nc + nc))].
  - rewrite app_nth1 by lia. rewrite app_nth2 by lia. rewrite app_nth1 by (rewrite map_length; lia). rewrite L1.
    replace (a + nc - nc)%nat with a by lia. rewrite <- conj0 at 2. now rewrite map_nth.
  - rewrite app_nth2 by lia. rewrite app_nth1 by (rewrite map_length; lia). rewrite L1. rewrite (app_nth1 es) by lia.
    rewrite <- conj0 at 1. rewrite map_nth. apply Cconj_conj.
  - rewrite app_nth2 by lia. rewrite app_nth2 by (rewrite map_length; lia). rewrite map_length, L1.
    destruct (a - nc - nc)%nat as [|[|q]] eqn:E; destruct (o_notrend (c_opt c)); cbn [negb app nth]; try apply Cconj_R; lia.
Qed.
Lemma b_one k : (k < n)%nat -> b k (nc + nc)%nat = RtoC 1.
Proof.
  intros Hk. destruct (row_shape _ _ (B_good k Hk)) as (es & L1 & _ & _ & E2). unfold bf. rewrite E2.
  rewrite app_nth2 by lia. rewrite app_nth2 by (rewrite map_length; lia). rewrite map_length, L1.
  replace (nc + nc - nc - nc)%nat with 0%nat by lia. reflexivity.
Qed.
Lemma b_trend k : o_notrend (c_opt c) = false -> (k < n)%nat -> si_lor si <> 0 /\ b k (nc + nc + 1)%nat = RtoC ((tm k - si_tref si) / si_lor si).
Proof.
  intros Ht Hk. destruct (row_shape _ _ (B_good k Hk)) as (es & L1 & _ & E3 & E2). rewrite Ht in E3, E2. cbn [negb] in E3, E2.
  split; [now apply E3|]. unfold bf. rewrite E2.
  rewrite app_nth2 by lia. rewrite app_nth2 by (rewrite map_length; lia). rewrite map_length, L1.
  replace (nc + nc + 1 - nc - nc)%nat with 1%nat by lia. reflexivity.
Qed.

Lemma row_len k : (k < n)%nat -> length (nth k B []) = N.
Proof.
  intros Hk. destruct (row_shape _ _ (B_good k Hk)) as (es & L1 & _ & _ & E2). rewrite E2, !app_length, map_length, L1.
  destruct (o_notrend (c_opt c)); cbn [negb length]; lia.
Qed.
Lemma m_len : length m = N.
Proof. rewrite (bh_len _ _ _ _ _ _ _ _ _ _ _ _ _ _ BH). apply run_counts. Qed.
Lemma row_m k : (k < n)%nat -> cdot (nth k B []) m = Sm N (fun a => Cmult (b k a) (nth a m (RtoC 0))).
Proof. intros Hk. now apply cdot_Sm; [apply row_len|apply m_len]. Qed.

(** *** the weights that pick a column *)
Definition picked (tau : nat -> C) (w : list R) : Prop :=
  length w = n /\ forall a, (a < N)%nat -> Sm n (fun k => Cmult (Cconj (b k a)) (RtoC (nth k w 0))) = tau a.

Hypothesis ND : NoDup (s_lind s).

Lemma li_eq a a' : (a < nc)%nat -> (a' < nc)%nat -> Nat.eqb (li a) (li a') = Nat.eqb a' a.
Proof.
  intros H1 H2. destruct (Nat.eqb_spec (li a) (li a')) as [E|E], (Nat.eqb_spec a' a) as [E'|E']; auto.
  - exfalso. apply E'. symmetry. apply (proj1 (NoDup_nth _ 0%nat) ND); auto.
  - subst. contradiction.
Qed.

Definition tauC (cosine : bool) (c0 : nat) : nat -> C := if cosine then tauX nc c0 else tauY nc c0.

Lemma wave_sum w a : length w = n -> (a < nc)%nat ->
  Sm n (fun k => Cmult (Cconj (b k a)) (RtoC (nth k w 0))) = (wsum w sm (wave_cos c (li a)), - wsum w sm (wave_sin c (li a))).
Proof.
  intros Hw Ha. transitivity (Cminus (RtoC (wsum w sm (wave_cos c (li a)))) (Cmult (0, 1) (RtoC (wsum w sm (wave_sin c (li a)))))).
  - rewrite !wsum_Sm by auto. rewrite <- Sm_l, <- Sm_minus. apply Sm_ext. intros k Hk. rewrite b_wave by auto. apply C_eq; cbn; ring.
  - apply C_eq; cbn; ring.
Qed.
Lemma wave_sum' w a : length w = n -> (a < nc)%nat ->
  Sm n (fun k => Cmult (Cconj (b k (a + nc)%nat)) (RtoC (nth k w 0))) = (wsum w sm (wave_cos c (li a)), wsum w sm (wave_sin c (li a))).
Proof.
  intros Hw Ha. transitivity (Cconj (Sm n (fun k => Cmult (Cconj (b k a)) (RtoC (nth k w 0))))).
  - rewrite Sm_conj. apply Sm_ext. intros k Hk. rewrite Cconj_mult, Cconj_R. f_equal. rewrite (b_conj k a) by lia. f_equal.
    f_equal. unfold swapP. destruct (Nat.ltb_spec a nc); lia.
  - rewrite wave_sum by auto. apply C_eq; cbn; ring.
Qed.

Lemma picked_iff cosine c0 w : (c0 < nc)%nat -> unbiased c sm (li c0) cosine w <-> picked (tauC cosine c0) w.
Proof.
  intros Hc0. assert (PL : Permutation (c_lind c) (s_lind s)) by apply run_counts.
  assert (TX : forall a, (a < nc)%nat -> tauC cosine c0 a = ((if cosine && Nat.eqb c0 a then 1 else 0), - (if negb cosine && Nat.eqb c0 a then 1 else 0))).
  { intros a Ha. unfold tauC; destruct cosine; unfold tauX, tauY, kd; (destruct (Nat.eqb_spec (c0 + nc) a); [lia|]); destruct (Nat.eqb c0 a); apply C_eq; cbn; ring. }
  assert (TX' : forall a, (a < nc)%nat -> tauC cosine c0 (a + nc)%nat = ((if cosine && Nat.eqb c0 a then 1 else 0), (if negb cosine && Nat.eqb c0 a then 1 else 0))).
  { intros a Ha. assert (Q : Nat.eqb (c0 + nc) (a + nc) = Nat.eqb c0 a) by (destruct (Nat.eqb_spec c0 a), (Nat.eqb_spec (c0 + nc) (a + nc)); auto; lia).
    unfold tauC; destruct cosine; unfold tauX, tauY, kd; rewrite Q; (destruct (Nat.eqb_spec c0 (a + nc)); [lia|]); destruct (Nat.eqb c0 a); apply C_eq; cbn; ring. }
  assert (T0 : forall a, (nc + nc <= a)%nat -> tauC cosine c0 a = RtoC 0).
  { intros a Ha. unfold tauC; destruct cosine; unfold tauX, tauY, kd; (destruct (Nat.eqb_spec c0 a), (Nat.eqb_spec (c0 + nc) a); try lia); apply C_eq; cbn; ring. }
  assert (One : forall w, length w = n -> Sm n (fun k => Cmult (Cconj (b k (nc + nc)%nat)) (RtoC (nth k w 0))) = RtoC (wsum w sm (fun _ => 1))).
  { intros w0 Hw. rewrite wsum_Sm by auto. apply Sm_ext. intros k Hk. rewrite b_one by auto. apply C_eq; cbn; ring. }
  assert (Tre : o_notrend (c_opt c) = false -> forall w, length w = n -> sm <> [] -> si_lor si <> 0 /\
    Sm n (fun k => Cmult (Cconj (b k (nc + nc + 1)%nat)) (RtoC (nth k w 0))) = RtoC (wsum w sm (fun x => x - c_reftime c) / si_lor si)).
  { intros Ht w0 Hw Hne. assert (H0 : (0 < n)%nat) by (destruct sm; [congruence|cbn; lia]). destruct (b_trend 0 Ht H0) as [Hl _]. split; auto.
    transitivity (Cmult (RtoC (wsum w0 sm (fun x => x - c_reftime c))) (RtoC (/ si_lor si))); [|apply C_eq; cbn; field; auto].
    rewrite wsum_Sm by auto. rewrite <- Sm_r. apply Sm_ext. intros k Hk. destruct (b_trend k Ht Hk) as [_ ->].
    rewrite (bh_tref _ _ _ _ _ _ _ _ _ _ _ _ _ _ BH). apply C_eq; cbn; field; auto. }
  assert (SN : sm <> []) by (intros E; assert (H := bh_t _ _ _ _ _ _ _ _ _ _ _ _ _ _ BH); rewrite S1, E in H; now apply H).
  split.
  - intros (Hw & U1 & U2 & U3). split; auto. intros a Ha.
    destruct (Nat.lt_ge_cases a nc) as [H|H]; [|destruct (Nat.lt_ge_cases a (nc + nc)) as [H'|H']].
    + rewrite wave_sum, TX by auto. destruct (U1 (li a)) as [-> ->].
      * apply (Permutation_in _ (Permutation_sym PL)). now apply nth_In.
      * rewrite li_eq by auto. reflexivity.
    + replace a with ((a - nc) + nc)%nat by lia. rewrite wave_sum', TX' by lia. destruct (U1 (li (a - nc))) as [-> ->].
      * apply (Permutation_in _ (Permutation_sym PL)). apply nth_In. lia.
      * rewrite li_eq by lia. reflexivity.
    + rewrite T0 by auto. destruct (Nat.eq_dec a (nc + nc)) as [->|Hd].
      * rewrite One, U2 by auto. reflexivity.
      * destruct (o_notrend (c_opt c)) eqn:Et; [lia|]. replace a with (nc + nc + 1)%nat by lia.
        destruct (Tre eq_refl w Hw SN) as [Hl ->]. rewrite (U3 eq_refl). apply C_eq; cbn; field; auto.
  - intros (Hw & U). split; auto. split; [|split].
    + intros j Hj. apply (Permutation_in _ PL) in Hj. destruct (In_nth _ _ 0%nat Hj) as (a & Ha & <-).
      assert (E := U (a + nc)%nat ltac:(lia)). rewrite wave_sum', TX' in E by auto. injection E as E1 E2. rewrite E1, E2. rewrite li_eq by auto. auto.
    + assert (E := U (nc + nc)%nat ltac:(lia)). rewrite One, T0 in E by auto. now apply R_of_C.
    + intros Ht. assert (E := U (nc + nc + 1)%nat ltac:(rewrite Ht; lia)). destruct (Tre Ht w Hw SN) as [Hl E']. rewrite E', T0 in E by lia.
      apply R_of_C in E. apply (Rmult_eq_reg_r (/ si_lor si)); [|now apply Rinv_neq_0_compat]. rewrite Rmult_0_l. exact E.
Qed.
End Run.
